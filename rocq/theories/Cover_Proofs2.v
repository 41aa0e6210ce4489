(** * Domino tilings by exact cover *)
From Coq Require Import ZArith List Bool Lia Sorting.Sorted Sorting.Permutation.
From Verif Require Import Base Lists2 Count Gen Cover_Model Cover_Spec Cover_Proofs Tiling_Spec Tiling_Proofs Tiling_Proofs2 Tiling_Proofs3.
Import ListNotations.
Open Scope Z_scope.

Lemma number_of_inj {A B} (P : A -> Prop) (Q : B -> Prop) (f : A -> B) v :
  (forall x y, P x -> P y -> f x = f y -> x = y) -> (forall y, Q y <-> exists x, P x /\ f x = y) ->
  number_of P v -> number_of Q v.
Proof.
  intros Hi Hs (L & N & H & ->). exists (map f L). rewrite map_length. split; [|split; [|reflexivity]].
  - apply NoDup_map_inj; [exact N|]. intros x y Hx Hy. apply Hi; apply H; assumption.
  - intros y. rewrite in_map_iff, Hs. split.
    + intros (x & E & Hx). exists x. split; [apply H, Hx|exact E].
    + intros (x & Hx & E). exists x. split; [exact E|apply H, Hx].
Qed.

(** The set bits of v below m. *)
Definition bitsof (m v : Z) : list Z := filter (Z.testbit v) (zrange 0 m).

Lemma zrange_sorted a b : StronglySorted Z.lt (zrange a b).
Proof.
  destruct (Z.le_gt_cases b a) as [H|H]; [rewrite zrange_nil by lia; constructor|].
  remember (Z.to_nat (b - a)) as k eqn:Hk. revert a H Hk. induction k as [|k IH]; intros a H Hk; [lia|].
  rewrite zrange_cons by lia. constructor.
  - destruct (Z.eq_dec (a + 1) b) as [E|E]; [rewrite zrange_nil by lia; constructor|]. apply IH; lia.
  - rewrite Forall_forall. intros x Hx. apply zrange_In in Hx. lia.
Qed.

Lemma filter_sorted {A} (R : A -> A -> Prop) f l : StronglySorted R l -> StronglySorted R (filter f l).
Proof.
  induction 1 as [|x l S IH F]; cbn [filter]; [constructor|]. destruct (f x); [|exact IH]. constructor; [exact IH|].
  rewrite Forall_forall in *. intros y Hy. apply filter_In in Hy. apply F, Hy.
Qed.

Lemma bitsof_In m v b : In b (bitsof m v) <-> 0 <= b < m /\ Z.testbit v b = true.
Proof. unfold bitsof. rewrite filter_In, zrange_In. reflexivity. Qed.

Lemma bitsof_inj m v w : 0 <= v < 2 ^ m -> 0 <= w < 2 ^ m -> 0 <= m -> bitsof m v = bitsof m w -> v = w.
Proof.
  intros Hv Hw Hm E. apply Z.bits_inj'. intros n Hn. destruct (Z.lt_ge_cases n m) as [H|H].
  - assert (X : forall u, Z.testbit u n = true <-> In n (bitsof m u)) by (intros u; rewrite bitsof_In; intuition lia).
    destruct (Z.testbit v n) eqn:E1, (Z.testbit w n) eqn:E2; try reflexivity; exfalso.
    + apply X in E1. rewrite E in E1. apply X in E1. congruence.
    + apply X in E2. rewrite <- E in E2. apply X in E2. congruence.
  - rewrite !(high_bits m) by assumption. reflexivity.
Qed.

Lemma bitsof_hd m v j : 0 < v < 2 ^ m -> 0 <= m -> lowest_bit v j -> hd 0 (bitsof m v) = j /\ In j (bitsof m v).
Proof.
  intros Hv Hm (Hj & T & L). assert (Hjm : j < m).
  { destruct (Z.lt_ge_cases j m) as [H|H]; [exact H|]. rewrite (high_bits m) in T by lia. discriminate. }
  assert (Hin : In j (bitsof m v)) by (apply bitsof_In; auto). split; [|exact Hin].
  pose proof (filter_sorted Z.lt (Z.testbit v) _ (zrange_sorted 0 m)) as S. fold (bitsof m v) in S.
  destruct (bitsof m v) as [|x l] eqn:E; [destruct Hin|]. cbn [hd]. destruct Hin as [->|Hin]; [reflexivity|].
  inversion S as [|? ? _ F]; subst. rewrite Forall_forall in F. specialize (F j Hin).
  assert (Hx : In x (bitsof m v)) by (rewrite E; left; reflexivity). apply bitsof_In in Hx as (H1 & H2).
  rewrite L in H2 by lia. discriminate.
Qed.

Section Pieces.
  Context (ints : list Z) (m : Z).
  Hypothesis Hpos : forall v, In v ints -> 0 < v.
  Hypothesis Hm : 0 <= m.
  Hypothesis Hw : forall v, In v ints -> v < 2 ^ m.
  Hypothesis Hnd : NoDup ints.

  Notation val i := (nth i ints 0).
  Definition is_vec (p : list Z) : Prop := exists v, In v ints /\ p = bitsof m v.
  Definition tof (I : list nat) : list (list Z) := map (fun i => bitsof m (val i)) I.

  Lemma count_occ_filter f (l : list Z) b : count_occ Z.eq_dec (filter f l) b = if f b then count_occ Z.eq_dec l b else O.
  Proof.
    induction l as [|x l IH]; cbn [filter count_occ]; [destruct (f b); reflexivity|].
    destruct (Z.eq_dec x b) as [->|Hne].
    - destruct (f b) eqn:E; [cbn [count_occ]; destruct (Z.eq_dec b b); [rewrite IH; reflexivity|congruence]|exact IH].
    - destruct (f x); [cbn [count_occ]; destruct (Z.eq_dec x b); [congruence|exact IH]|exact IH].
  Qed.

  Lemma count_zrange b : count_occ Z.eq_dec (zrange 0 m) b = if (0 <=? b) && (b <? m) then 1%nat else O.
  Proof.
    destruct ((0 <=? b) && (b <? m)) eqn:E.
    - apply NoDup_count_occ'; [apply zrange_NoDup|]. apply zrange_In. apply andb_true_iff in E. lia.
    - apply count_occ_not_In. rewrite zrange_In. apply andb_false_iff in E. lia.
  Qed.

  Lemma count_tof I b : count_occ Z.eq_dec (concat (tof I)) b = if (0 <=? b) && (b <? m) then cnt ints b I else O.
  Proof.
    induction I as [|i I IH]; [destruct (_ && _); reflexivity|]. unfold tof. cbn [map concat]. rewrite count_occ_app.
    fold (tof I). rewrite IH. unfold bitsof. rewrite count_occ_filter, count_zrange, cnt_cons.
    destruct ((0 <=? b) && (b <? m)), (Z.testbit (val i) b); reflexivity.
  Qed.

  Lemma cover_tiling I : exact_cover ints m I <->
    (forall i, In i I -> (i < length ints)%nat) /\ tiling 0 Z.lt is_vec (zrange 0 m) (tof I).
  Proof.
    assert (V : forall i, (i < length ints)%nat -> 0 < val i < 2 ^ m).
    { intros i Hi. split; [apply Hpos|apply Hw]; apply nth_In; exact Hi. }
    split.
    - intros (A & B & C). split; [exact A|]. split; [|split].
      + rewrite Forall_forall. intros p Hp. apply in_map_iff in Hp as (i & <- & Hi). exists (val i). split; [apply nth_In, A, Hi|reflexivity].
      + unfold tof. revert B. apply StronglySorted_map. intros i j Hi Hj (a & b & Ha & Hb & Hab).
        rewrite (proj1 (bitsof_hd m _ a (V i (A i Hi)) Hm Ha)), (proj1 (bitsof_hd m _ b (V j (A j Hj)) Hm Hb)). exact Hab.
      + apply (Permutation_count_occ Z.eq_dec). intros b. rewrite count_tof, count_zrange.
        destruct ((0 <=? b) && (b <? m)) eqn:E; [|reflexivity]. apply C. apply andb_true_iff in E. lia.
    - intros (A & B & C & P). split; [exact A|]. split.
      + clear - A C V Hpos Hm Hw. induction I as [|i I IH]; [constructor|]. unfold tof in C. cbn [map] in C.
        inversion_clear C as [|? ? C1 C2]. constructor; [apply IH; [intros k Hk; apply A; right; exact Hk|exact C1]|].
        rewrite Forall_forall in *. intros k Hk.
        assert (Hi : (i < length ints)%nat) by (apply A; left; reflexivity). assert (Hk' : (k < length ints)%nat) by (apply A; right; exact Hk).
        specialize (C2 (bitsof m (val k)) (in_map _ _ _ Hk)).
        destruct (land_neg_lowest (val i) (proj1 (V i Hi))) as (a & Ha & _). destruct (land_neg_lowest (val k) (proj1 (V k Hk'))) as (b & Hb & _).
        exists a, b. split; [exact Ha|]. split; [exact Hb|].
        rewrite (proj1 (bitsof_hd m _ a (V i Hi) Hm Ha)), (proj1 (bitsof_hd m _ b (V k Hk') Hm Hb)) in C2. exact C2.
      + intros b Hb. rewrite (Permutation_count_occ Z.eq_dec) in P. specialize (P b). rewrite count_tof, count_zrange in P.
        destruct ((0 <=? b) && (b <? m)) eqn:E; [exact P|]. apply andb_false_iff in E. lia.
  Qed.

  Lemma cover_count v : number_of (exact_cover ints m) v -> number_of (tiling 0 Z.lt is_vec (zrange 0 m)) v.
  Proof.
    apply (number_of_inj _ _ tof).
    - intros I J (A & _) (B & _). revert J B. induction I as [|i I IH]; intros [|j J] B E; try discriminate; [reflexivity|].
      unfold tof in E. cbn [map] in E. injection E as E1 E2.
      assert (Hi : (i < length ints)%nat) by (apply A; left; reflexivity). assert (Hj : (j < length ints)%nat) by (apply B; left; reflexivity).
      f_equal; [|apply IH; [intros k Hk; apply A; right; exact Hk|intros k Hk; apply B; right; exact Hk|exact E2]].
      apply bitsof_inj in E1; [|split; [apply Z.lt_le_incl, Hpos|apply Hw]; apply nth_In; assumption|split; [apply Z.lt_le_incl, Hpos|apply Hw]; apply nth_In; assumption|exact Hm].
      apply (proj1 (NoDup_nth ints 0) Hnd); assumption.
    - intros T. split.
      + intros HT. assert (G : exists I, (forall i, In i I -> (i < length ints)%nat) /\ tof I = T).
        { destruct HT as (F & _). clear - F. induction F as [|p T Hp F (I & A & E)]; [exists []; split; [intros i []|reflexivity]|].
          destruct Hp as (v & Hv & ->). destruct (In_nth ints v 0 Hv) as (i & Hi & <-). exists (i :: I).
          split; [intros k [<-|Hk]; auto|]. unfold tof in *. cbn [map]. rewrite E. reflexivity. }
        destruct G as (I & A & <-). exists I. split; [|reflexivity]. apply cover_tiling. split; [exact A|exact HT].
      + intros (I & HI & <-). apply cover_tiling in HI. apply HI.
  Qed.
End Pieces.

(** ** Dominoes on the n x n board *)
Section Board.
  Context (n : Z).
  Hypothesis Hn : 2 <= n.
  Notation m := (n * n).

  Definition bit2 (a b : Z) : Z := Z.lor (Z.shiftl 1 a) (Z.shiftl 1 b).

  Lemma bit2_spec a b i : 0 <= a -> 0 <= b -> 0 <= i -> Z.testbit (bit2 a b) i = (a =? i) || (b =? i).
  Proof.
    intros Ha Hb Hi. unfold bit2. rewrite Z.lor_spec, !Z.shiftl_1_l, !Z.pow2_bits_eqb by assumption. reflexivity.
  Qed.

  Lemma bit2_bounds a b k : 0 <= a < b -> b < k -> 0 < bit2 a b < 2 ^ k /\ 2 ^ b <= bit2 a b.
  Proof.
    intros Ha Hb. unfold bit2. rewrite !Z.shiftl_1_l.
    assert (E : Z.lor (2 ^ a) (2 ^ b) = 2 ^ a + 2 ^ b).
    { rewrite <- Z.lxor_lor; [symmetry; apply Z.add_nocarry_lxor|]; apply Z.bits_inj'; intros i Hi;
        rewrite Z.land_spec, !Z.pow2_bits_eqb, Z.testbit_0_l by lia; destruct (Z.eqb_spec a i), (Z.eqb_spec b i); try reflexivity; lia. }
    rewrite E. assert (0 < 2 ^ a) by (apply Z.pow_pos_nonneg; lia). assert (2 ^ a < 2 ^ b) by (apply Z.pow_lt_mono_r; lia).
    assert (2 ^ (b + 1) <= 2 ^ k) by (apply Z.pow_le_mono_r; lia). rewrite Z.pow_add_r in H1 by lia. change (2 ^ 1) with 2 in H1. lia.
  Qed.

  Lemma bitsof_bit2 a b : 0 <= a < b -> b < m -> bitsof m (bit2 a b) = [a; b].
  Proof.
    intros Ha Hb. apply (sorted_ext Z.lt Z.lt_irrefl Z.lt_trans).
    - apply filter_sorted, zrange_sorted.
    - repeat constructor; lia.
    - apply NoDup_same_perm.
      + apply NoDup_filter, zrange_NoDup.
      + repeat constructor; cbn [In]; intuition lia.
      + intros x. rewrite bitsof_In. cbn [In]. split.
        * intros (H1 & H2). rewrite bit2_spec in H2 by lia. apply orb_true_iff in H2. lia.
        * intros [<-|[<-|[]]]; (split; [lia|]); rewrite bit2_spec by lia; rewrite Z.eqb_refl; cbn [orb]; [reflexivity|apply orb_true_r].
  Qed.

  Lemma domino_ints_In v : In v (domino_ints n) <-> exists a b, v = bit2 a b /\ 0 <= a /\ b < m /\ (b = a + n \/ (b = a + 1 /\ b mod n <> 0)).
  Proof.
    unfold domino_ints. rewrite in_flat_map. split.
    - intros (i & Hi & H). apply zrange_In in Hi. apply in_app_or in H as [H|H].
      + destruct (Z.ltb_spec (i + n) m); [|destruct H]. destruct H as [<-|[]]. exists i, (i + n). repeat split; auto; lia.
      + destruct (Z.ltb_spec (i + 1) m); cbn [andb] in H; [|destruct H]. destruct (Z.eqb_spec ((i + 1) mod n) 0); cbn [negb] in H; [destruct H|].
        destruct H as [<-|[]]. exists i, (i + 1). repeat split; auto; lia.
    - intros (a & b & -> & Ha & Hb & H). exists a. split; [apply zrange_In; lia|]. apply in_or_app. destruct H as [->|(-> & H)].
      + left. destruct (Z.ltb_spec (a + n) m); [left; reflexivity|lia].
      + right. destruct (Z.ltb_spec (a + 1) m); [|lia]. destruct (Z.eqb_spec ((a + 1) mod n) 0); [contradiction|]. left. reflexivity.
  Qed.

  Lemma bit2_inj a b a' b' : 0 <= a < b -> b < m -> 0 <= a' < b' -> b' < m -> bit2 a b = bit2 a' b' -> a = a' /\ b = b'.
  Proof.
    intros H1 H2 H3 H4 E. assert (X : [a; b] = [a'; b']) by (rewrite <- (bitsof_bit2 a b), E, (bitsof_bit2 a' b') by assumption; reflexivity).
    injection X. auto.
  Qed.

  Lemma domino_ints_NoDup : NoDup (domino_ints n).
  Proof.
    unfold domino_ints.
    assert (G : forall l, NoDup l -> (forall i, In i l -> 0 <= i < m) -> NoDup (flat_map (fun i =>
      (if i + n <? m then [Z.lor (Z.shiftl 1 i) (Z.shiftl 1 (i + n))] else []) ++
      (if (i + 1 <? m) && negb ((i + 1) mod n =? 0) then [Z.lor (Z.shiftl 1 i) (Z.shiftl 1 (i + 1))] else [])) l)).
    { induction 1 as [|i l Hi N IH]; intros R; [constructor|]. cbn [flat_map]. apply NoDup_app_intro.
      - destruct (Z.ltb_spec (i + n) m) as [H1|H1]; destruct (Z.ltb_spec (i + 1) m) as [H2|H2]; cbn [andb app];
          try destruct (negb ((i + 1) mod n =? 0)); repeat constructor; try (intros []; fail).
        intros [E|[]]. specialize (R i (or_introl eq_refl)). fold (bit2 i (i + 1)) (bit2 i (i + n)) in E. apply bit2_inj in E; lia.
      - apply IH. intros k Hk. apply R. right. exact Hk.
      - intros x Hx Hy. pose proof (R i (or_introl eq_refl)) as Ri.
        assert (Px : exists b, x = bit2 i b /\ i < b < m).
        { apply in_app_or in Hx as [Hx|Hx].
          - destruct (Z.ltb_spec (i + n) m); [|destruct Hx]. destruct Hx as [<-|[]]. exists (i + n). split; [reflexivity|lia].
          - destruct (Z.ltb_spec (i + 1) m); cbn [andb] in Hx; [|destruct Hx]. destruct (negb _); [|destruct Hx].
            destruct Hx as [<-|[]]. exists (i + 1). split; [reflexivity|lia]. }
        apply in_flat_map in Hy as (k & Hk & Hy). pose proof (R k (or_intror Hk)) as Rk.
        clear Hx. assert (Py : exists b, x = bit2 k b /\ k < b < m).
        { apply in_app_or in Hy as [Hy|Hy].
          - destruct (Z.ltb_spec (k + n) m); [|destruct Hy]. destruct Hy as [<-|[]]. exists (k + n). split; [reflexivity|lia].
          - destruct (Z.ltb_spec (k + 1) m); cbn [andb] in Hy; [|destruct Hy]. destruct (negb _); [|destruct Hy].
            destruct Hy as [<-|[]]. exists (k + 1). split; [reflexivity|lia]. }
        destruct Px as (b & -> & Hb). destruct Py as (b' & E & Hb'). apply bit2_inj in E; [|lia|lia|lia|lia]. destruct E as (-> & _). contradiction. }
    apply G; [apply zrange_NoDup|]. intros i Hi. apply zrange_In in Hi. exact Hi.
  Qed.

  Lemma domino_ints_bounds v : In v (domino_ints n) -> 0 < v < 2 ^ m.
  Proof.
    intros H. apply domino_ints_In in H as (a & b & -> & Ha & Hb & H). apply (bit2_bounds a b m); [|exact Hb]. lia.
  Qed.

  Lemma domino_width : is_width (domino_ints n) m.
  Proof.
    assert (H4 : 4 <= m) by nia. split; [lia|]. split; [intros v Hv; apply domino_ints_bounds, Hv|]. intros _.
    exists (bit2 (m - 2) (m - 1)). split.
    - apply domino_ints_In. exists (m - 2), (m - 1). split; [reflexivity|]. split; [lia|]. split; [lia|]. right. split; [lia|].
      replace (m - 1) with (n - 1 + (n - 1) * n) by ring. rewrite Z.mod_add by lia. rewrite Z.mod_small by lia. lia.
    - apply (bit2_bounds (m - 2) (m - 1) m); lia.
  Qed.

  Lemma domino_tilings_ok : exists v, domino_tilings n = Ret v /\ number_of (is_tiling domino n n) v.
  Proof.
    assert (P : forall v, In v (domino_ints n) -> 0 < v) by (intros v Hv; apply domino_ints_bounds, Hv).
    unfold domino_tilings, ec_number_of_solutions.
    rewrite (width_unique _ _ _ P (num_bits_width _ P) domino_width).
    assert (H4 : 4 <= m) by nia.
    destruct (ec_count (domino_ints n) m P ltac:(lia) ltac:(intros v Hv; apply domino_ints_bounds, Hv)) as (t & cache & E & V).
    rewrite E. exists t. split; [reflexivity|]. apply domino_coord; [lia|lia|].
    apply cover_count in V; [|exact P|lia|intros v Hv; apply domino_ints_bounds, Hv|apply domino_ints_NoDup].
    revert V. apply number_of_ext. intros T. split; intros (A & B & C); (split; [|split; [exact B|exact C]]).
    - rewrite Forall_forall in *. intros p Hp. destruct (A p Hp) as (v & Hv & ->). apply domino_ints_In in Hv as (a & b & -> & Ha & Hb & H).
      rewrite bitsof_bit2 by lia. exists a. split; [exact Ha|]. destruct H as [->|(-> & H)]; auto.
    - rewrite Forall_forall in *. intros p Hp. destruct (A p Hp) as (a & Ha & H).
      assert (R : forall x, In x p -> 0 <= x < m).
      { intros x Hx. apply zrange_In. eapply Permutation_in; [exact C|]. apply in_concat. exists p. auto. }
      destruct H as [->|(-> & H)].
      + exists (bit2 a (a + n)). split; [|rewrite bitsof_bit2; [reflexivity|lia|]; apply R; right; left; reflexivity].
        apply domino_ints_In. exists a, (a + n). split; [reflexivity|]. split; [exact Ha|]. split; [apply R; right; left; reflexivity|auto].
      + exists (bit2 a (a + 1)). split; [|rewrite bitsof_bit2; [reflexivity|lia|]; apply R; right; left; reflexivity].
        apply domino_ints_In. exists a, (a + 1). split; [reflexivity|]. split; [exact Ha|]. split; [apply R; right; left; reflexivity|auto].
  Qed.
End Board.
