(** * Langford pairings by exact cover *)
From Coq Require Import ZArith List Bool Lia Sorting.Sorted Sorting.Permutation.
From Verif Require Import Base Lists2 Count Gen Cover_Model Cover_Spec Cover_Proofs Cover_Proofs2 Tiling_Proofs Tiling_Proofs3 Tiling_Proofs4.
Import ListNotations.
Open Scope Z_scope.

(** A set with an involution without fixed point has an even number of elements. *)
Lemma number_of_even {A} (P : A -> Prop) (f : A -> A) v :
  (forall x, P x -> P (f x)) -> (forall x, P x -> f (f x) = x) -> (forall x, P x -> f x <> x) ->
  number_of P v -> Z.even v = true.
Proof.
  intros H1 H2 H3 (L & N & H & ->).
  assert (G : forall k L, (length L <= k)%nat -> NoDup L -> (forall x, In x L -> P x) -> (forall x, In x L -> In (f x) L) -> Z.even (Z.of_nat (length L)) = true).
  { clear L N H. induction k as [|k IH]; intros L Hk N Q C.
    - destruct L; [reflexivity|cbn [length] in Hk; lia].
    - destruct L as [|x L]; [reflexivity|]. pose proof (Q x (or_introl eq_refl)) as Px.
      destruct (C x (or_introl eq_refl)) as [E|Hf]; [exfalso; apply (H3 x Px); auto|].
      apply in_split in Hf as (u & w & ->). inversion N as [|? ? Nx N']; subst.
      pose proof (NoDup_remove_1 _ _ _ N') as Nu. pose proof (NoDup_remove_2 _ _ _ N') as Nf.
      assert (E : Z.of_nat (length (x :: u ++ f x :: w)) = Z.of_nat (length (u ++ w)) + 2).
      { cbn [length]. rewrite !app_length. cbn [length]. lia. }
      rewrite E, Z.even_add. rewrite IH; [reflexivity| |exact Nu| |].
      + cbn [length] in Hk. rewrite !app_length in *. cbn [length] in Hk. lia.
      + intros y Hy. apply Q. right. apply in_or_app. apply in_app_or in Hy. cbn [In]. tauto.
      + intros y Hy.
        assert (Hy' : In y (x :: u ++ f x :: w)) by (right; apply in_or_app; apply in_app_or in Hy; cbn [In]; tauto).
        destruct (C y Hy') as [E1|Hin].
        * exfalso. apply Nf. rewrite E1, (H2 y (Q y Hy')). exact Hy.
        * apply in_app_or in Hin as [Hin|[E1|Hin]]; [apply in_or_app; auto| |apply in_or_app; auto].
          exfalso. apply Nx. apply in_or_app. assert (x = y) as -> by (rewrite <- (H2 x Px), E1; apply H2, Q, Hy').
          apply in_app_or in Hy. cbn [In]. tauto. }
  apply (G (length L)); [lia|exact N|intros x Hx; apply H, Hx|intros x Hx; apply H, H1, H, Hx].
Qed.

Section Langford.
  Context (n : Z).
  Hypothesis Hn : 2 <= n.

  Definition lpairs : list (Z * Z) := flat_map (fun p => map (fun r => (p, r)) (rev (zrange 0 (2 * n - 1 - p)))) (zrange 1 (n + 1)).
  Definition vec (pr : Z * Z) : Z :=
    Z.lor (Z.lor (Z.shiftl 1 (3 * n - fst pr)) (Z.shiftl 1 (snd pr + fst pr + 1))) (Z.shiftl 1 (snd pr)).

  Lemma langford_ints_vec : langford_ints n = map vec lpairs.
  Proof.
    unfold langford_ints, lpairs. generalize (zrange 1 (n + 1)) as l.
    induction l as [|p l IH]; [reflexivity|]. cbn [flat_map]. rewrite map_app, IH, map_map. reflexivity.
  Qed.

  Lemma lpairs_In p r : In (p, r) lpairs <-> 1 <= p <= n /\ 0 <= r /\ r + p + 1 < 2 * n.
  Proof.
    unfold lpairs. rewrite in_flat_map. split.
    - intros (q & Hq & H). apply zrange_In in Hq. apply in_map_iff in H as (t & E & Ht). injection E as -> ->.
      apply in_rev, zrange_In in Ht. lia.
    - intros H. exists p. split; [apply zrange_In; lia|]. apply in_map_iff. exists r. split; [reflexivity|]. apply in_rev. rewrite rev_involutive. apply zrange_In. lia.
  Qed.

  Lemma lpairs_NoDup : NoDup lpairs.
  Proof.
    unfold lpairs. generalize (zrange_NoDup 1 (n + 1)). generalize (zrange 1 (n + 1)) as l.
    induction 1 as [|p l Hp N IH]; [constructor|]. cbn [flat_map]. apply NoDup_app_intro; [|exact IH|].
    - apply NoDup_map_inj; [apply NoDup_rev, zrange_NoDup|]. intros x y _ _ E. injection E. auto.
    - intros x Hx Hy. apply in_map_iff in Hx as (r & <- & _). apply in_flat_map in Hy as (q & Hq & Hy). apply in_map_iff in Hy as (t & E & _).
      injection E as -> _. contradiction.
  Qed.

  Lemma vec_bit p r b : In (p, r) lpairs -> 0 <= b -> Z.testbit (vec (p, r)) b = (3 * n - p =? b) || (r + p + 1 =? b) || (r =? b).
  Proof.
    intros H Hb. apply lpairs_In in H. unfold vec. cbn [fst snd]. rewrite !Z.lor_spec, !Z.shiftl_1_l, !Z.pow2_bits_eqb by lia. reflexivity.
  Qed.

  Notation ints := (langford_ints n).
  Notation val i := (nth i (langford_ints n) 0).
  Definition pr (i : nat) : Z * Z := nth i lpairs (0, 0).
  Definition P (i : nat) : Z := fst (pr i).
  Definition R (i : nat) : Z := snd (pr i).

  Lemma ints_len : length ints = length lpairs.
  Proof. rewrite langford_ints_vec, map_length. reflexivity. Qed.

  Lemma val_vec i : (i < length ints)%nat -> val i = vec (P i, R i) /\ In (P i, R i) lpairs.
  Proof.
    intros Hi. rewrite ints_len in Hi. rewrite langford_ints_vec. rewrite (nth_indep _ 0 (vec (0, 0))) by (rewrite map_length; exact Hi).
    rewrite map_nth. unfold P, R. fold (pr i). rewrite <- surjective_pairing. split; [reflexivity|]. apply nth_In, Hi.
  Qed.

  Lemma val_bit i b : (i < length ints)%nat -> 0 <= b -> Z.testbit (val i) b = true <-> b = 3 * n - P i \/ b = R i + P i + 1 \/ b = R i.
  Proof.
    intros Hi Hb. destruct (val_vec i Hi) as (-> & H). rewrite vec_bit by assumption. rewrite !orb_true_iff, !Z.eqb_eq. intuition lia.
  Qed.

  Lemma PR_bounds i : (i < length ints)%nat -> 1 <= P i <= n /\ 0 <= R i /\ R i + P i + 1 < 2 * n.
  Proof. intros Hi. apply lpairs_In, val_vec, Hi. Qed.

  Lemma PR_inj i j : (i < length ints)%nat -> (j < length ints)%nat -> P i = P j -> R i = R j -> i = j.
  Proof.
    rewrite ints_len. intros Hi Hj E1 E2. apply (proj1 (NoDup_nth lpairs (0, 0)) lpairs_NoDup); try assumption.
    fold (pr i) (pr j). rewrite (surjective_pairing (pr i)), (surjective_pairing (pr j)). unfold P, R in *. congruence.
  Qed.

  Lemma val_lowest i : (i < length ints)%nat -> lowest_bit (val i) (R i).
  Proof.
    intros Hi. pose proof (PR_bounds i Hi) as B. split; [lia|]. split.
    - apply val_bit; [exact Hi|lia|]. auto.
    - intros b Hb. destruct (Z.testbit (val i) b) eqn:E; [|reflexivity]. apply val_bit in E; [|exact Hi|lia]. lia.
  Qed.

  Lemma pow2_above v k : (forall b, k <= b -> Z.testbit v b = false) -> 0 <= v -> 0 <= k -> v < 2 ^ k.
  Proof.
    intros H Hv Hk. destruct (Z.eq_dec v 0) as [->|H0]; [apply Z.pow_pos_nonneg; lia|].
    assert (T : Z.log2 v < k).
    { destruct (Z.lt_ge_cases (Z.log2 v) k) as [L|L]; [exact L|]. specialize (H _ L). rewrite Z.bit_log2 in H by lia. discriminate. }
    apply Z.log2_lt_pow2; lia.
  Qed.

  Lemma lints_bounds v : In v ints -> 0 < v < 2 ^ (3 * n).
  Proof.
    rewrite langford_ints_vec. intros H. apply in_map_iff in H as ((p, r) & <- & H). pose proof (proj1 (lpairs_In p r) H) as B.
    assert (N0 : 0 <= vec (p, r)) by (unfold vec; cbn [fst snd]; rewrite !Z.lor_nonneg, !Z.shiftl_nonneg; lia). split.
    - destruct (Z.eq_dec (vec (p, r)) 0) as [E|E]; [|lia]. exfalso.
      assert (T : Z.testbit (vec (p, r)) r = true) by (rewrite vec_bit by (assumption || lia); rewrite Z.eqb_refl; apply orb_true_r).
      rewrite E, Z.testbit_0_l in T. discriminate.
    - apply pow2_above; [|exact N0|lia]. intros b Hb. rewrite vec_bit by (assumption || lia).
      destruct (Z.eqb_spec (3 * n - p) b), (Z.eqb_spec (r + p + 1) b), (Z.eqb_spec r b); try reflexivity; lia.
  Qed.

  Lemma langford_width : is_width ints (3 * n).
  Proof.
    split; [lia|]. split; [intros v Hv; apply lints_bounds, Hv|]. intros _.
    assert (H : In (1, 0) lpairs) by (apply lpairs_In; lia).
    exists (vec (1, 0)). assert (Hv : In (vec (1, 0)) ints) by (rewrite langford_ints_vec; apply in_map, H). split; [exact Hv|].
    destruct (Z.le_gt_cases (2 ^ (3 * n - 1)) (vec (1, 0))) as [L|L]; [exact L|]. exfalso.
    assert (T : Z.testbit (vec (1, 0)) (3 * n - 1) = true) by (rewrite vec_bit by (assumption || lia); rewrite Z.eqb_refl; reflexivity).
    rewrite (high_bits (3 * n - 1)) in T; [discriminate|split; [apply Z.lt_le_incl, lints_bounds, Hv|exact L]|lia].
  Qed.

  (** ** From covers to sequences *)
  Definition lab (I : list nat) (b : Z) : Z :=
    match find (fun i => Z.testbit (val i) b) I with Some i => P i | None => 0 end.
  Definition seqof (I : list nat) : list Z := map (lab I) (zrange 0 (2 * n)).

  Lemma seqof_len I : length (seqof I) = Z.to_nat (2 * n).
  Proof. unfold seqof. rewrite map_length, zrange_length. f_equal. lia. Qed.

  Lemma seqof_nth I b : (b < Z.to_nat (2 * n))%nat -> nth b (seqof I) 0 = lab I (Z.of_nat b).
  Proof.
    intros Hb. unfold seqof. rewrite (nth_indep _ 0 (lab I 0)) by (rewrite map_length, zrange_length; lia). rewrite map_nth.
    rewrite zrange_nth by lia. f_equal.
  Qed.

  Lemma filter_one {A} (f : A -> bool) l : length (filter f l) = 1%nat -> exists i, In i l /\ f i = true /\ find f l = Some i /\ forall j, In j l -> f j = true -> j = i.
  Proof.
    intros H. destruct (filter f l) as [|i [|? ?]] eqn:E; try discriminate. exists i.
    assert (Hi : In i (filter f l)) by (rewrite E; left; reflexivity). apply filter_In in Hi as (A1 & A2).
    assert (U : forall j, In j l -> f j = true -> j = i).
    { intros j B1 B2. assert (Hj : In j (filter f l)) by (apply filter_In; auto). rewrite E in Hj. destruct Hj as [->|[]]. reflexivity. }
    repeat split; auto. destruct (find f l) as [j|] eqn:F.
    - f_equal. apply find_some in F. apply U; apply F.
    - pose proof (find_none _ _ F i A1). congruence.
  Qed.

  Section Sound.
    Context (I : list nat).
    Hypothesis HI : exact_cover ints (3 * n) I.

    Lemma cover_bit b : 0 <= b < 3 * n -> exists i, In i I /\ (i < length ints)%nat /\ Z.testbit (val i) b = true /\
      find (fun i => Z.testbit (val i) b) I = Some i /\ forall j, In j I -> Z.testbit (val j) b = true -> j = i.
    Proof.
      intros Hb. destruct HI as (A & _ & C). destruct (filter_one _ _ (C b Hb)) as (i & H1 & H2 & H3 & H4). exists i.
      repeat split; auto.
    Qed.

    Lemma lab_iff i b : In i I -> 0 <= b < 2 * n -> lab I b = P i <-> b = R i \/ b = R i + P i + 1.
    Proof.
      intros Hi Hb. destruct (cover_bit b ltac:(lia)) as (j & J1 & J2 & J3 & J4 & J5). unfold lab. rewrite J4.
      assert (Li : (i < length ints)%nat) by (apply HI, Hi). pose proof (PR_bounds i Li) as Bi. pose proof (PR_bounds j J2) as Bj.
      split.
      - intros E. destruct (cover_bit (3 * n - P i) ltac:(lia)) as (k & K1 & K2 & K3 & K4 & K5).
        assert (i = k) by (apply K5; [exact Hi|apply val_bit; [exact Li|lia|auto]]).
        assert (j = k) by (apply K5; [exact J1|apply val_bit; [exact J2|lia|left; lia]]).
        subst. apply val_bit in J3; [|exact J2|lia]. lia.
      - intros H. rewrite <- (J5 i Hi); [reflexivity|]. apply val_bit; [exact Li|lia|]. destruct H; auto.
    Qed.

    Lemma seqof_langford : langford n (seqof I).
    Proof.
      split; [apply seqof_len|]. split.
      - rewrite Forall_forall. intros k Hk. apply in_map_iff in Hk as (b & <- & Hb). apply zrange_In in Hb.
        destruct (cover_bit b ltac:(lia)) as (j & J1 & J2 & J3 & J4 & J5). unfold lab. rewrite J4. apply PR_bounds, J2.
      - intros k Hk. destruct (cover_bit (3 * n - k) ltac:(lia)) as (i & I1 & I2 & I3 & _).
        pose proof (PR_bounds i I2) as B. apply val_bit in I3; [|exact I2|lia]. assert (Ek : P i = k) by lia.
        exists (Z.to_nat (R i)). rewrite seqof_len. split; [lia|]. intros b Hb. rewrite seqof_nth by exact Hb.
        rewrite <- Ek. rewrite (lab_iff i (Z.of_nat b) I1) by lia. lia.
    Qed.
  End Sound.

  Lemma seqof_incl I J : exact_cover ints (3 * n) I -> exact_cover ints (3 * n) J -> seqof I = seqof J -> incl I J.
  Proof.
    intros HI HJ E i Hi. assert (Li : (i < length ints)%nat) by (apply HI, Hi). pose proof (PR_bounds i Li) as Bi.
    assert (L : forall b, 0 <= b < 2 * n -> lab I b = lab J b).
    { intros b Hb. pose proof (f_equal (fun l => nth (Z.to_nat b) l 0) E) as X. cbn beta in X. rewrite !seqof_nth in X by lia. rewrite Z2Nat.id in X by lia. exact X. }
    destruct (cover_bit J HJ (3 * n - P i) ltac:(lia)) as (j & J1 & J2 & J3 & _). pose proof (PR_bounds j J2) as Bj.
    apply val_bit in J3; [|exact J2|lia]. assert (Ep : P j = P i) by lia.
    assert (X1 : lab J (R i) = P j) by (rewrite <- L, Ep by lia; apply lab_iff; auto; lia).
    apply (lab_iff J HJ j) in X1; [|exact J1|lia].
    assert (X2 : lab I (R j) = P i) by (rewrite L, <- Ep by lia; apply lab_iff; auto; lia).
    apply (lab_iff I HI i) in X2; [|exact Hi|lia].
    rewrite (PR_inj i j Li J2); [exact J1|lia|lia].
  Qed.

  Definition rlt (i j : nat) : Prop := R i < R j.

  Lemma sorted_rlt I : (forall i, In i I -> (i < length ints)%nat) ->
    StronglySorted (fun i j => exists a b, lowest_bit (val i) a /\ lowest_bit (val j) b /\ a < b) I <-> StronglySorted rlt I.
  Proof.
    intros A. split; intros S; rewrite <- (map_id I); revert S; apply StronglySorted_map.
    -      intros i j Hi Hj (a & b & Ha & Hb & L). unfold rlt.
      rewrite (lowest_bit_unique _ _ _ (val_lowest i (A i Hi)) Ha), (lowest_bit_unique _ _ _ (val_lowest j (A j Hj)) Hb). exact L.
    -      intros i j Hi Hj L. exists (R i), (R j). split; [apply val_lowest, A, Hi|]. split; [apply val_lowest, A, Hj|exact L].
  Qed.

  Lemma rlt_NoDup I : StronglySorted rlt I -> NoDup I.
  Proof.
    induction 1 as [|i I S IH F]; [constructor|]. constructor; [|exact IH]. intros H. rewrite Forall_forall in F. specialize (F i H). unfold rlt in F. lia.
  Qed.

  Lemma seqof_inj I J : exact_cover ints (3 * n) I -> exact_cover ints (3 * n) J -> seqof I = seqof J -> I = J.
  Proof.
    intros HI HJ E. pose proof (seqof_incl I J HI HJ E) as X. pose proof (seqof_incl J I HJ HI (eq_sym E)) as Y.
    destruct HI as (A & B & _), HJ as (A' & B' & _). apply sorted_rlt in B; [|exact A]. apply sorted_rlt in B'; [|exact A'].
    apply (sorted_ext rlt); [intros x Hx; unfold rlt in Hx; lia|intros x y z; unfold rlt; lia|exact B|exact B'|].
    apply NoDup_same_perm; [apply rlt_NoDup, B|apply rlt_NoDup, B'|]. intros x. split; auto.
  Qed.

  (** ** From sequences to covers *)
  Section Complete.
    Context (s : list Z).
    Hypothesis Hs : langford n s.

    Notation at_s b := (nth (Z.to_nat b) s 0).
    Definition used (i : nat) : bool := (at_s (R i) =? P i) && (at_s (R i + P i + 1) =? P i).
    Definition coverof : list nat := isort (fun i j => R i <? R j) (filter used (seq 0 (length ints))).

    Lemma slen : length s = Z.to_nat (2 * n).
    Proof. apply Hs. Qed.

    Lemma coverof_In i : In i coverof <-> (i < length ints)%nat /\ used i = true.
    Proof.
      unfold coverof. split; intros H.
      - apply (Permutation_in i (isort_perm _ _)) in H. apply filter_In in H as (H1 & H2). apply in_seq in H1. split; [lia|exact H2].
      - apply (Permutation_in i (Permutation_sym (isort_perm _ _))). apply filter_In. split; [apply in_seq; lia|apply H].
    Qed.

    Lemma s_iff i b : (i < length ints)%nat -> used i = true -> 0 <= b < 2 * n -> at_s b = P i <-> b = R i \/ b = R i + P i + 1.
    Proof.
      intros Hi U Hb. pose proof (PR_bounds i Hi) as B. destruct Hs as (L & F & H). destruct (H (P i)) as (r & Hr & X); [lia|].
      apply andb_true_iff in U as (U1 & U2). apply Z.eqb_eq in U1, U2. rewrite L in *.
      apply (X (Z.to_nat (R i)) ltac:(lia)) in U1. apply (X (Z.to_nat (R i + P i + 1)) ltac:(lia)) in U2.
      rewrite (X (Z.to_nat b) ltac:(lia)). lia.
    Qed.

    Lemma first_index k : 1 <= k <= n -> exists i, (i < length ints)%nat /\ P i = k /\ used i = true.
    Proof.
      intros Hk. destruct Hs as (L & F & H). destruct (H k Hk) as (r & Hr & X). rewrite L in *.
      assert (Hin : In (k, Z.of_nat r) lpairs) by (apply lpairs_In; lia).
      destruct (In_nth lpairs _ (0, 0) Hin) as (i & Hi & E). exists i. rewrite ints_len. split; [exact Hi|].
      assert (EP : P i = k) by (unfold P, pr; rewrite E; reflexivity). assert (ER : R i = Z.of_nat r) by (unfold R, pr; rewrite E; reflexivity).
      split; [exact EP|]. unfold used. rewrite EP, ER. apply andb_true_iff. rewrite !Z.eqb_eq. split; apply X; lia.
    Qed.

    Lemma R_inj i j : In i coverof -> In j coverof -> R i = R j -> i = j.
    Proof.
      intros Hi Hj E. apply coverof_In in Hi as (Li & Ui). apply coverof_In in Hj as (Lj & Uj).
      apply PR_inj; [exact Li|exact Lj| |exact E]. unfold used in Ui, Uj. apply andb_true_iff in Ui as (Ui & _). apply andb_true_iff in Uj as (Uj & _).
      apply Z.eqb_eq in Ui, Uj. rewrite <- Ui, <- Uj, E. reflexivity.
    Qed.

    Lemma coverof_sorted : StronglySorted rlt coverof.
    Proof.
      unfold coverof. apply isort_sorted.
      - intros x y H. apply Z.ltb_lt in H. exact H.
      - intros x y z. unfold rlt. lia.
      - assert (G : forall l, NoDup l -> (forall i, In i l -> In i coverof) -> ForallOrdPairs (fun x y => (R x <? R y) = false -> rlt y x) l).
        { induction 1 as [|i l Hi N IH]; intros Q; [constructor|]. constructor; [|apply IH; intros k Hk; apply Q; right; exact Hk].
          rewrite Forall_forall. intros j Hj E. apply Z.ltb_ge in E. unfold rlt.
          destruct (Z.eq_dec (R i) (R j)) as [E2|E2]; [|lia]. exfalso. apply Hi.
          rewrite (R_inj i j); [exact Hj|apply Q; left; reflexivity|apply Q; right; exact Hj|exact E2]. }
        apply G; [apply NoDup_filter, seq_NoDup|]. intros i Hi. apply (Permutation_in i (Permutation_sym (isort_perm _ _))). exact Hi.
    Qed.

    Lemma filter_unique {A} (f : A -> bool) l i : NoDup l -> In i l -> f i = true -> (forall j, In j l -> f j = true -> j = i) -> length (filter f l) = 1%nat.
    Proof.
      intros N Hi Fi U. assert (E : Permutation (filter f l) [i]).
      { apply NoDup_same_perm; [apply NoDup_filter, N|repeat constructor; intros []|]. intros x. rewrite filter_In. split.
        - intros (X & Y). left. symmetry. auto.
        - intros [<-|[]]. auto. }
      apply Permutation_length in E. exact E.
    Qed.

    Lemma coverof_cover : exact_cover ints (3 * n) coverof.
    Proof.
      assert (A : forall i, In i coverof -> (i < length ints)%nat) by (intros i Hi; apply coverof_In, Hi).
      split; [exact A|]. split; [apply sorted_rlt; [exact A|apply coverof_sorted]|]. intros b Hb.
      assert (G : exists i, In i coverof /\ Z.testbit (val i) b = true).
      { destruct (Z.lt_ge_cases b (2 * n)) as [H|H].
        - destruct Hs as (L & F & _). rewrite Forall_forall in F. assert (Hk : 1 <= at_s b <= n) by (apply F, nth_In; lia).
          destruct (first_index _ Hk) as (i & Li & EP & U). exists i. split; [apply coverof_In; auto|]. apply val_bit; [exact Li|lia|].
          destruct (proj1 (s_iff i b Li U ltac:(lia)) (eq_sym EP)); auto.
        - destruct (first_index (3 * n - b) ltac:(lia)) as (i & Li & EP & U). exists i. split; [apply coverof_In; auto|]. apply val_bit; [exact Li|lia|]. lia. }
      destruct G as (i & Hi & Ti). apply (filter_unique _ _ i); [apply rlt_NoDup, coverof_sorted|exact Hi|exact Ti|].
      intros j Hj Tj. apply coverof_In in Hi as (Li & Ui). apply coverof_In in Hj as (Lj & Uj).
      pose proof (PR_bounds i Li) as Bi. pose proof (PR_bounds j Lj) as Bj.
      apply val_bit in Ti; [|exact Li|lia]. apply val_bit in Tj; [|exact Lj|lia].
      assert (EP : P j = P i).
      { destruct (Z.lt_ge_cases b (2 * n)) as [H|H]; [|lia].
        rewrite <- (proj2 (s_iff i b Li Ui ltac:(lia)) ltac:(lia)), <- (proj2 (s_iff j b Lj Uj ltac:(lia)) ltac:(lia)). reflexivity. }
      apply PR_inj; [exact Lj|exact Li|exact EP|].
      assert (X1 : at_s (R j) = P i) by (rewrite <- EP; apply s_iff; auto; lia). apply (s_iff i) in X1; [|exact Li|exact Ui|lia].
      assert (X2 : at_s (R i) = P j) by (rewrite EP; apply s_iff; auto; lia). apply (s_iff j) in X2; [|exact Lj|exact Uj|lia]. lia.
    Qed.

    Lemma seqof_coverof : seqof coverof = s.
    Proof.
      apply (nth_ext _ _ 0 0); [rewrite seqof_len, slen; reflexivity|]. intros b Hb. rewrite seqof_len in Hb. rewrite seqof_nth by exact Hb.
      destruct Hs as (L & F & _). rewrite Forall_forall in F. assert (Hk : 1 <= nth b s 0 <= n) by (apply F, nth_In; lia).
      destruct (first_index _ Hk) as (i & Li & EP & U). rewrite <- EP. apply (lab_iff coverof coverof_cover); [apply coverof_In; auto|lia|].
      apply (s_iff i (Z.of_nat b) Li U ltac:(lia)). rewrite Nat2Z.id. auto.
    Qed.
  End Complete.

  Lemma langford_count : exists c, ec_number_of_solutions ints = Ret c /\ number_of (langford n) c.
  Proof.
    assert (Q : forall v, In v ints -> 0 < v) by (intros v Hv; apply lints_bounds, Hv).
    unfold ec_number_of_solutions. rewrite (width_unique _ _ _ Q (num_bits_width _ Q) langford_width).
    destruct (ec_count ints (3 * n) Q ltac:(lia) ltac:(intros v Hv; apply lints_bounds, Hv)) as (t & cache & E & V).
    rewrite E. exists t. split; [reflexivity|]. revert V. apply (number_of_inj _ _ seqof).
    - intros I J. apply seqof_inj.
    - intros s. split.
      + intros Hs. exists (coverof s). split; [apply coverof_cover, Hs|apply seqof_coverof, Hs].
      + intros (I & HI & <-). apply seqof_langford, HI.
  Qed.
End Langford.

Lemma langford_rev n s : langford n s -> langford n (rev s).
Proof.
  intros (L & F & H). split; [rewrite rev_length; exact L|]. split; [apply Forall_rev, F|]. intros k Hk.
  destruct (H k Hk) as (r & Hr & X). rewrite rev_length. exists (length s - S (r + Z.to_nat k + 1))%nat. split; [lia|].
  intros i Hi. rewrite rev_nth by exact Hi. rewrite X by lia. lia.
Qed.

Lemma langford_rev_neq n s : 1 <= n -> langford n s -> rev s <> s.
Proof.
  intros Hn (L & F & H) E. destruct (H 1 ltac:(lia)) as (r & Hr & X). change (Z.to_nat 1) with 1%nat in *.
  assert (Y : nth r (rev s) 0 = 1) by (rewrite E; apply X; [lia|auto]). rewrite rev_nth in Y by lia. apply X in Y; lia.
Qed.

Lemma langford_pairings_ok n : 1 <= n -> exists c, number_of (langford n) (2 * c) /\ langford_pairings n = Ret c.
Proof.
  intros Hn. unfold langford_pairings. destruct (Z.eq_dec n 1) as [->|Hne].
  - exists 0. split; [|reflexivity]. change (2 * 0) with 0. apply number_of_none. intros s (L & F & H).
    destruct (H 1 ltac:(lia)) as (r & Hr & _). rewrite L in Hr. change (Z.to_nat 1) with 1%nat in Hr. change (Z.to_nat (2 * 1)) with 2%nat in Hr. lia.
  - destruct (langford_count n ltac:(lia)) as (c & E & V). rewrite E. cbn [bind].
    assert (Ev : Z.even c = true).
    { revert V. apply (number_of_even _ (@rev Z)); [apply langford_rev|intros s _; apply rev_involutive|intros s; apply langford_rev_neq; lia]. }
    apply Z.even_spec in Ev as (h & ->). exists h. split; [exact V|]. f_equal. rewrite Z.mul_comm. apply Z.div_mul. lia.
Qed.
