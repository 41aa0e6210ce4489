(** * Latin squares by exact cover: the covers are the squares *)
From Coq Require Import ZArith List Bool Lia Sorting.Sorted Sorting.Permutation.
From Verif Require Import Base Lists2 Count Gen Cover_Model Cover_Spec Cover_Proofs Cover_Proofs2 Cover_Proofs3 Tiling_Proofs Tiling_Proofs3 Tiling_Proofs4
  Latin_Spec Latin_Model Latin_Proofs.
Import ListNotations.
Open Scope Z_scope.

Section Latin.
  Context (n : Z).
  Hypothesis Hn : 1 <= n.
  Notation N2 := (n * n).
  Notation ints := (latin_square_ints n).
  Notation val k := (nth k (latin_square_ints n) 0).
  Notation it := (it n). Notation cbit := (cbit n). Notation rbit := (rbit n). Notation lbit := (lbit n).
  Definition sy (k : nat) : Z := fst (fst (it k)).
  Definition co (k : nat) : Z := snd (fst (it k)).
  Definition ro (k : nat) : Z := snd (it k).

  Lemma it_eta k : it k = (sy k, co k, ro k).
  Proof using Hn. unfold sy, co, ro. destruct (it k) as ((p, i), j). reflexivity. Qed.

  Lemma it_bounds k : (k < length ints)%nat -> 0 <= sy k < n /\ 0 <= co k < n /\ 0 <= ro k < n.
  Proof using Hn. intros Hk. pose proof (proj2 (lval n Hn k Hk)) as H. rewrite it_eta in H. apply litems_In in H; assumption. Qed.

  (** ** From covers to squares *)
  Definition cell (j i : Z) : Z := N2 - 1 - (j * n + i).
  Definition sym (I : list nat) (j i : Z) : Z :=
    match find (fun k => Z.testbit (val k) (cell j i)) I with Some k => sy k | None => 0 end.
  Definition square (I : list nat) : list (list Z) := map (fun j => map (sym I j) (zrange 0 n)) (zrange 0 n).

  Lemma zrange_nth_map {A} (f : Z -> A) d j : 0 <= j < n -> nth (Z.to_nat j) (map f (zrange 0 n)) d = f j.
  Proof using Hn.
    intros Hj. rewrite (nth_indep _ d (f 0)) by (rewrite map_length, zrange_length; lia). rewrite map_nth, zrange_nth by lia. f_equal. lia.
  Qed.

  Lemma square_nth I j i : 0 <= j < n -> 0 <= i < n -> nth (Z.to_nat i) (nth (Z.to_nat j) (square I) []) 0 = sym I j i.
  Proof using Hn. intros Hj Hi. unfold square. rewrite zrange_nth_map by exact Hj. apply zrange_nth_map, Hi. Qed.

  Lemma cell_cbit j i k : (k < length ints)%nat -> 0 <= j < n -> 0 <= i < n -> Z.testbit (val k) (cell j i) = true <-> ro k = j /\ co k = i.
  Proof using Hn.
    intros Hk Hj Hi. pose proof (code_bound n j i Hj Hi) as B. pose proof (bit_bounds n Hn _ (proj2 (lval n Hn k Hk))) as B'.
    rewrite lval_bit; [|exact Hn|exact Hk|unfold cell; lia]. destruct (it_bounds k Hk) as (_ & Hc & Hr). rewrite it_eta in *. unfold Latin_Proofs.cbit, Latin_Proofs.rbit, Latin_Proofs.lbit, cell in *. split.
    - intros H. assert (E : j * n + i = ro k * n + co k) by lia. apply code_inj in E; [|exact Hi|exact Hc]. destruct E. auto.
    - intros (-> & ->). auto.
  Qed.

  Section Sound.
    Context (I : list nat).
    Hypothesis HI : exact_cover ints (3 * N2) I.

    Lemma lcover_bit b : 0 <= b < 3 * N2 -> exists k, In k I /\ (k < length ints)%nat /\ Z.testbit (val k) b = true /\
      find (fun k => Z.testbit (val k) b) I = Some k /\ forall l, In l I -> Z.testbit (val l) b = true -> l = k.
    Proof using Hn HI.
      intros Hb. destruct HI as (A & _ & C). destruct (filter_one _ _ (C b Hb)) as (i & H1 & H2 & H3 & H4). exists i. repeat split; auto.
    Qed.

    Lemma sym_at j i : 0 <= j < n -> 0 <= i < n -> exists k, In k I /\ (k < length ints)%nat /\ ro k = j /\ co k = i /\ sym I j i = sy k.
    Proof using Hn HI.
      intros Hj Hi. pose proof (code_bound n j i Hj Hi) as B. destruct (lcover_bit (cell j i)) as (k & K1 & K2 & K3 & K4 & _); [unfold cell; lia|].
      exists k. apply cell_cbit in K3; [|assumption..]. unfold sym. rewrite K4. destruct K3. auto.
    Qed.

    Lemma sym_item k : In k I -> sym I (ro k) (co k) = sy k.
    Proof using Hn HI.
      intros Hk. assert (Lk : (k < length ints)%nat) by (apply HI, Hk). destruct (it_bounds k Lk) as (_ & Hc & Hr).
      pose proof (code_bound n (ro k) (co k) Hr Hc) as B. destruct (lcover_bit (cell (ro k) (co k))) as (l & K1 & K2 & K3 & K4 & K5); [unfold cell; lia|].
      unfold sym. rewrite K4. rewrite (K5 k Hk); [reflexivity|]. apply cell_cbit; auto.
    Qed.

    Lemma unique_bit k l b : In k I -> In l I -> 0 <= b < 3 * N2 -> Z.testbit (val k) b = true -> Z.testbit (val l) b = true -> k = l.
    Proof using Hn HI.
      intros Hk Hl Hb Tk Tl. destruct (lcover_bit b Hb) as (m & _ & _ & _ & _ & U). rewrite (U k Hk Tk), (U l Hl Tl). reflexivity.
    Qed.

    Lemma square_latin : latin_square n (square I).
    Proof using Hn HI.
      split; [unfold square; rewrite map_length, zrange_length; lia|]. split.
      - rewrite Forall_forall. intros row Hrow. apply in_map_iff in Hrow as (j & <- & Hj). apply zrange_In in Hj. apply perm_bis.
        + apply NoDup_map_inj; [apply zrange_NoDup|]. intros i i' Hi Hi' E. apply zrange_In in Hi, Hi'.
          destruct (sym_at j i Hj Hi) as (k & K1 & K2 & K3 & K4 & K5). destruct (sym_at j i' Hj Hi') as (l & L1 & L2 & L3 & L4 & L5).
          pose proof (bit_bounds n Hn _ (proj2 (lval n Hn k K2))) as B.
          rewrite <- K4, <- L4. f_equal. apply (unique_bit k l (rbit (it k)) K1 L1); [lia|apply lval_bit; auto; lia|].
          apply lval_bit; [exact Hn|exact L2|lia|]. right. left. rewrite !it_eta. unfold Latin_Proofs.rbit. rewrite K3, L3, <- K5, <- L5, E. reflexivity.
        + rewrite map_length. reflexivity.
        + intros x Hx. apply in_map_iff in Hx as (i & <- & Hi). apply zrange_In in Hi. destruct (sym_at j i Hj Hi) as (k & _ & K2 & _ & _ & ->).
          apply zrange_In, it_bounds, K2.
      - intros i Hi. unfold square. rewrite map_map. rewrite (map_ext_in _ (fun j => sym I j i)) by (intros j _; apply zrange_nth_map, Hi). apply perm_bis.
        + apply NoDup_map_inj; [apply zrange_NoDup|]. intros j j' Hj Hj' E. apply zrange_In in Hj, Hj'.
          destruct (sym_at j i Hj Hi) as (k & K1 & K2 & K3 & K4 & K5). destruct (sym_at j' i Hj' Hi) as (l & L1 & L2 & L3 & L4 & L5).
          pose proof (bit_bounds n Hn _ (proj2 (lval n Hn k K2))) as B.
          rewrite <- K3, <- L3. f_equal. apply (unique_bit k l (lbit (it k)) K1 L1); [lia|apply lval_bit; auto; lia|].
          apply lval_bit; [exact Hn|exact L2|lia|]. right. right. rewrite !it_eta. unfold Latin_Proofs.lbit. rewrite K4, L4, <- K5, <- L5, E. reflexivity.
        + rewrite map_length. reflexivity.
        + intros x Hx. apply in_map_iff in Hx as (j & <- & Hj). apply zrange_In in Hj. destruct (sym_at j i Hj Hi) as (k & _ & K2 & _ & _ & ->).
          apply zrange_In, it_bounds, K2.
    Qed.
  End Sound.

  Lemma square_incl I J : exact_cover ints (3 * N2) I -> exact_cover ints (3 * N2) J -> square I = square J -> incl I J.
  Proof using Hn.
    intros HI HJ E k Hk. assert (Lk : (k < length ints)%nat) by (apply HI, Hk). destruct (it_bounds k Lk) as (_ & Hc & Hr).
    destruct (sym_at J HJ (ro k) (co k) Hr Hc) as (l & L1 & L2 & L3 & L4 & L5).
    assert (Es : sym J (ro k) (co k) = sy k) by (rewrite <- square_nth, <- E, square_nth, sym_item by assumption; reflexivity).
    rewrite (it_inj n Hn k l Lk L2); [exact L1|]. rewrite !it_eta. congruence.
  Qed.

  Definition clt (k l : nat) : Prop := cbit (it k) < cbit (it l).

  Lemma sorted_clt I : (forall i, In i I -> (i < length ints)%nat) ->
    StronglySorted (fun i j => exists a b, lowest_bit (val i) a /\ lowest_bit (val j) b /\ a < b) I <-> StronglySorted clt I.
  Proof using Hn.
    intros A. split; intros S; rewrite <- (map_id I); revert S; apply StronglySorted_map.
    - intros i j Hi Hj (a & b & Ha & Hb & L). unfold clt.
      rewrite (lowest_bit_unique _ _ _ (lval_lowest n Hn i (A i Hi)) Ha), (lowest_bit_unique _ _ _ (lval_lowest n Hn j (A j Hj)) Hb). exact L.
    - intros i j Hi Hj L. exists (cbit (it i)), (cbit (it j)). split; [apply lval_lowest; auto|]. split; [apply lval_lowest; auto|exact L].
  Qed.

  Lemma clt_NoDup I : StronglySorted clt I -> NoDup I.
  Proof using Hn.
    induction 1 as [|i I S IH F]; [constructor|]. constructor; [|exact IH]. intros H. rewrite Forall_forall in F. specialize (F i H). unfold clt in F. lia.
  Qed.

  Lemma square_inj I J : exact_cover ints (3 * N2) I -> exact_cover ints (3 * N2) J -> square I = square J -> I = J.
  Proof using Hn.
    intros HI HJ E. pose proof (square_incl I J HI HJ E) as X. pose proof (square_incl J I HJ HI (eq_sym E)) as Y.
    destruct HI as (A & B & _), HJ as (A' & B' & _). apply sorted_clt in B; [|exact A]. apply sorted_clt in B'; [|exact A'].
    apply (sorted_ext clt); [intros x Hx; unfold clt in Hx; lia|intros x y z; unfold clt; lia|exact B|exact B'|].
    apply NoDup_same_perm; [apply clt_NoDup, B|apply clt_NoDup, B'|]. intros x. split; auto.
  Qed.

  (** ** From squares to covers *)
  Section Complete.
    Context (s : list (list Z)).
    Hypothesis Hs : latin_square n s.

    Definition at_s (j i : Z) : Z := nth (Z.to_nat i) (nth (Z.to_nat j) s []) 0.
    Definition lused (k : nat) : bool := at_s (ro k) (co k) =? sy k.
    Definition lcoverof : list nat := isort (fun k l => cbit (it k) <? cbit (it l)) (filter lused (seq 0 (length ints))).

    Lemma row_perm j : 0 <= j < n -> Permutation (nth (Z.to_nat j) s []) (zrange 0 n).
    Proof using Hn Hs. intros Hj. destruct Hs as (L & F & _). rewrite Forall_forall in F. apply F, nth_In. lia. Qed.

    Lemma row_len j : 0 <= j < n -> length (nth (Z.to_nat j) s []) = Z.to_nat n.
    Proof using Hn Hs. intros Hj. rewrite (Permutation_length (row_perm j Hj)), zrange_length. f_equal. lia. Qed.

    Lemma at_range j i : 0 <= j < n -> 0 <= i < n -> 0 <= at_s j i < n.
    Proof using Hn Hs.
      intros Hj Hi. apply zrange_In. eapply Permutation_in; [apply (row_perm j Hj)|]. apply nth_In. rewrite row_len; lia.
    Qed.

    Lemma row_inj j i i' : 0 <= j < n -> 0 <= i < n -> 0 <= i' < n -> at_s j i = at_s j i' -> i = i'.
    Proof using Hn Hs.
      intros Hj Hi Hi' E. assert (N : NoDup (nth (Z.to_nat j) s [])) by (apply (Permutation_NoDup (Permutation_sym (row_perm j Hj))), zrange_NoDup).
      pose proof (row_len j Hj) as L. pose proof (proj1 (NoDup_nth _ 0) N (Z.to_nat i) (Z.to_nat i') ltac:(lia) ltac:(lia) E). lia.
    Qed.

    Lemma row_surj j p : 0 <= j < n -> 0 <= p < n -> exists i, 0 <= i < n /\ at_s j i = p.
    Proof using Hn Hs.
      intros Hj Hp. assert (H : In p (nth (Z.to_nat j) s [])) by (eapply Permutation_in; [apply Permutation_sym, (row_perm j Hj)|apply zrange_In, Hp]).
      destruct (In_nth _ _ 0 H) as (i & Hi & E). rewrite row_len in Hi by exact Hj. exists (Z.of_nat i). split; [lia|]. unfold at_s. rewrite Nat2Z.id. exact E.
    Qed.

    Lemma col_nth i j : 0 <= i < n -> 0 <= j < n -> nth (Z.to_nat j) (map (fun row => nth (Z.to_nat i) row 0) s) 0 = at_s j i.
    Proof using Hn Hs.
      intros Hi Hj. destruct Hs as (L & _). rewrite (nth_indep _ 0 ((fun row => nth (Z.to_nat i) row 0) [])) by (rewrite map_length; lia). exact (map_nth (fun row => nth (Z.to_nat i) row 0) s [] (Z.to_nat j)).
    Qed.

    Lemma col_inj i j j' : 0 <= i < n -> 0 <= j < n -> 0 <= j' < n -> at_s j i = at_s j' i -> j = j'.
    Proof using Hn Hs.
      intros Hi Hj Hj' E. destruct Hs as (L & _ & C).
      assert (N : NoDup (map (fun row => nth (Z.to_nat i) row 0) s)) by (apply (Permutation_NoDup (Permutation_sym (C i Hi))), zrange_NoDup).
      rewrite <- !col_nth in E by assumption. pose proof (proj1 (NoDup_nth _ 0) N (Z.to_nat j) (Z.to_nat j') ltac:(rewrite map_length; lia) ltac:(rewrite map_length; lia) E). lia.
    Qed.

    Lemma col_surj i p : 0 <= i < n -> 0 <= p < n -> exists j, 0 <= j < n /\ at_s j i = p.
    Proof using Hn Hs.
      intros Hi Hp. destruct Hs as (L & _ & C).
      assert (H : In p (map (fun row => nth (Z.to_nat i) row 0) s)) by (eapply Permutation_in; [apply Permutation_sym, (C i Hi)|apply zrange_In, Hp]).
      destruct (In_nth _ _ 0 H) as (j & Hj & E). rewrite map_length in Hj. exists (Z.of_nat j). split; [lia|].
      rewrite <- col_nth by lia. rewrite Nat2Z.id. exact E.
    Qed.

    Lemma lcoverof_In k : In k lcoverof <-> (k < length ints)%nat /\ lused k = true.
    Proof using Hn.
      unfold lcoverof. split; intros H.
      - apply (Permutation_in k (isort_perm _ _)) in H. apply filter_In in H as (H1 & H2). apply in_seq in H1. split; [lia|exact H2].
      - apply (Permutation_in k (Permutation_sym (isort_perm _ _))). apply filter_In. split; [apply in_seq; lia|apply H].
    Qed.

    Lemma cover_at j i : 0 <= j < n -> 0 <= i < n -> exists k, In k lcoverof /\ (k < length ints)%nat /\ it k = (at_s j i, i, j).
    Proof using Hn Hs.
      intros Hj Hi. destruct (it_of n Hn (at_s j i, i, j)) as (k & Lk & E); [apply litems_In; [exact Hn|]; split; [apply at_range; assumption|auto]|].
      exists k. split; [|auto]. apply lcoverof_In. split; [exact Lk|]. unfold lused, sy, co, ro. rewrite E. cbn [fst snd]. apply Z.eqb_refl.
    Qed.

    Lemma lused_eq k : lused k = true -> sy k = at_s (ro k) (co k).
    Proof using Hn. intros H. apply Z.eqb_eq in H. auto. Qed.

    Lemma cell_unique k l : In k lcoverof -> In l lcoverof -> cbit (it k) = cbit (it l) -> k = l.
    Proof using Hn.
      intros Hk Hl E. apply lcoverof_In in Hk as (Lk & Uk). apply lcoverof_In in Hl as (Ll & Ul).
      destruct (same_cell n Hn _ _ (proj2 (lval n Hn k Lk)) (proj2 (lval n Hn l Ll)) E) as (E1 & E2). fold (ro k) (ro l) (co k) (co l) in E1, E2.
      apply (it_inj n Hn); [exact Lk|exact Ll|]. rewrite !it_eta, (lused_eq k Uk), (lused_eq l Ul), E1, E2. reflexivity.
    Qed.

    Lemma lcoverof_sorted : StronglySorted clt lcoverof.
    Proof using Hn.
      unfold lcoverof. apply isort_sorted.
      - intros x y H. apply Z.ltb_lt in H. exact H.
      - intros x y z. unfold clt. lia.
      - assert (G : forall l, NoDup l -> (forall i, In i l -> In i lcoverof) -> ForallOrdPairs (fun x y => (cbit (it x) <? cbit (it y)) = false -> clt y x) l).
        { induction 1 as [|i l Hi N IH]; intros Q; [constructor|]. constructor; [|apply IH; intros k Hk; apply Q; right; exact Hk].
          rewrite Forall_forall. intros j Hj E. apply Z.ltb_ge in E. unfold clt.
          destruct (Z.eq_dec (cbit (it i)) (cbit (it j))) as [E2|E2]; [|lia]. exfalso. apply Hi.
          rewrite (cell_unique i j); [exact Hj|apply Q; left; reflexivity|apply Q; right; exact Hj|exact E2]. }
        apply G; [apply NoDup_filter, seq_NoDup|]. intros i Hi. apply (Permutation_in i (Permutation_sym (isort_perm _ _))). exact Hi.
    Qed.

    Lemma lcoverof_cover : exact_cover ints (3 * N2) lcoverof.
    Proof using Hn Hs.
      assert (A : forall i, In i lcoverof -> (i < length ints)%nat) by (intros i Hi; apply lcoverof_In, Hi).
      split; [exact A|]. split; [apply sorted_clt; [exact A|apply lcoverof_sorted]|]. intros b Hb.
      assert (G : exists k, In k lcoverof /\ Z.testbit (val k) b = true).
      { destruct (Z.lt_ge_cases b N2) as [H|H]; [|destruct (Z.lt_ge_cases b (2 * N2)) as [H2|H2]].
        - destruct (code_split n (N2 - 1 - b)) as (j & i & E & Hj & Hi); [lia|lia|]. destruct (cover_at j i Hj Hi) as (k & K1 & K2 & K3).
          exists k. split; [exact K1|]. apply lval_bit; [exact Hn|exact K2|lia|]. left. rewrite K3. unfold Latin_Proofs.cbit. lia.
        - destruct (code_split n (2 * N2 - 1 - b)) as (j & p & E & Hj & Hp); [lia|lia|]. destruct (row_surj j p Hj Hp) as (i & Hi & Ep).
          destruct (cover_at j i Hj Hi) as (k & K1 & K2 & K3).
          exists k. split; [exact K1|]. apply lval_bit; [exact Hn|exact K2|lia|]. right. left. rewrite K3. unfold Latin_Proofs.rbit. lia.
        - destruct (code_split n (3 * N2 - 1 - b)) as (i & p & E & Hi & Hp); [lia|lia|]. destruct (col_surj i p Hi Hp) as (j & Hj & Ep).
          destruct (cover_at j i Hj Hi) as (k & K1 & K2 & K3).
          exists k. split; [exact K1|]. apply lval_bit; [exact Hn|exact K2|lia|]. right. right. rewrite K3. unfold Latin_Proofs.lbit. lia. }
      destruct G as (k & Hk & Tk). apply (filter_unique _ _ k); [apply clt_NoDup, lcoverof_sorted|exact Hk|exact Tk|].
      intros l Hl Tl. pose proof Hk as Hk'. pose proof Hl as Hl'. apply lcoverof_In in Hk' as (Lk & Uk). apply lcoverof_In in Hl' as (Ll & Ul).
      pose proof (proj2 (lval n Hn k Lk)) as Ik. pose proof (proj2 (lval n Hn l Ll)) as Il.
      pose proof (bit_bounds n Hn _ Ik) as Bk. pose proof (bit_bounds n Hn _ Il) as Bl.
      destruct (it_bounds k Lk) as (_ & Ck & Rk). destruct (it_bounds l Ll) as (_ & Cl & Rl).
      apply lval_bit in Tk; [|exact Hn|exact Lk|lia]. apply lval_bit in Tl; [|exact Hn|exact Ll|lia].
      apply lused_eq in Uk, Ul.
      assert (C : cbit (it l) = cbit (it k) \/ rbit (it l) = rbit (it k) \/ lbit (it l) = lbit (it k)) by lia.
      destruct C as [C|[C|C]].
      - apply cell_unique; assumption.
      - destruct (same_row n Hn _ _ Il Ik C) as (E1 & E2). fold (ro k) (ro l) (sy k) (sy l) in E1, E2. rewrite Uk, Ul, E1 in E2.
        apply row_inj in E2; [|assumption..]. apply (it_inj n Hn); [exact Ll|exact Lk|]. rewrite !it_eta, Uk, Ul, E1, E2. reflexivity.
      - destruct (same_col n Hn _ _ Il Ik C) as (E1 & E2). fold (co k) (co l) (sy k) (sy l) in E1, E2. rewrite Uk, Ul, E1 in E2.
        apply col_inj in E2; [|assumption..]. apply (it_inj n Hn); [exact Ll|exact Lk|]. rewrite !it_eta, Uk, Ul, E1, E2. reflexivity.
    Qed.

    Lemma square_coverof : square lcoverof = s.
    Proof using Hn Hs.
      pose proof Hs as (L & _). assert (L1 : length (square lcoverof) = Z.to_nat n) by (unfold square; rewrite map_length, zrange_length; f_equal; lia).
      apply (nth_ext _ _ [] []); [lia|]. intros j' Hj'. replace j' with (Z.to_nat (Z.of_nat j')) by lia. set (j := Z.of_nat j'). assert (Hj : 0 <= j < n) by (unfold j; lia).
      assert (E : nth (Z.to_nat j) (square lcoverof) [] = map (sym lcoverof j) (zrange 0 n)) by (unfold square; exact (zrange_nth_map (fun j => map (sym lcoverof j) (zrange 0 n)) [] j Hj)). rewrite E.
      apply (nth_ext _ _ 0 0); [rewrite map_length, zrange_length, row_len by exact Hj; f_equal; lia|]. rewrite map_length, zrange_length.
      intros i' Hi'. replace i' with (Z.to_nat (Z.of_nat i')) by lia. set (i := Z.of_nat i'). assert (Hi : 0 <= i < n) by (unfold i; lia).
      rewrite zrange_nth_map by exact Hi. fold (at_s j i).
      destruct (cover_at j i Hj Hi) as (k & K1 & K2 & K3). pose proof (sym_item lcoverof lcoverof_cover k K1) as X. unfold ro, co, sy in X. rewrite K3 in X. exact X.
    Qed.
  End Complete.

  Lemma latin_count : exists c, ec_number_of_solutions ints = Ret c /\ number_of (latin_square n) c.
  Proof using Hn.
    assert (Q : forall v, In v ints -> 0 < v) by (intros v Hv; apply (lints_bounds2 n Hn v Hv)).
    unfold ec_number_of_solutions. rewrite (width_unique _ _ _ Q (num_bits_width _ Q) (latin_width n Hn)).
    destruct (ec_count ints (3 * N2) Q ltac:(nia) ltac:(intros v Hv; apply (lints_bounds2 n Hn v Hv))) as (t & cache & E & V).
    rewrite E. exists t. split; [reflexivity|]. revert V. apply (number_of_inj _ _ square).
    - intros I J. apply square_inj.
    - intros s. split.
      + intros Hs. exists (lcoverof s). split; [apply lcoverof_cover, Hs|apply square_coverof, Hs].
      + intros (I & HI & <-). apply square_latin, HI.
  Qed.

  (** The lists of integers that are yielded are squares too. *)
  Lemma latin_solutions_ok : exists L, NoDup L /\ (forall s, In s L <-> latin_square n s) /\
    yields (ec_solutions ints) (map (fun s => map (fun k => val k) (lcoverof s)) L).
  Proof using Hn.
    assert (Q : forall v, In v ints -> 0 < v) by (intros v Hv; apply (lints_bounds2 n Hn v Hv)).
    destruct (ec_loop_solutions ints (3 * N2) Q ltac:(nia) ltac:(intros v Hv; apply (lints_bounds2 n Hn v Hv))) as (L & N & H & Y).
    exists (map square L). split; [|split].
    - apply NoDup_map_inj; [exact N|]. intros I J HI HJ. apply square_inj; apply H; assumption.
    - intros s. rewrite in_map_iff. split.
      + intros (I & <- & HI). apply square_latin, H, HI.
      + intros Hs. exists (lcoverof s). split; [apply square_coverof, Hs|apply H, lcoverof_cover, Hs].
    - unfold ec_solutions. rewrite (width_unique ints _ _ Q (num_bits_width ints Q) (latin_width n Hn)).
      rewrite map_map. rewrite (map_ext_in _ (fun I => map (fun i => val i) I)); [exact Y|].
      intros I HI. apply H in HI. f_equal. apply square_inj; [|exact HI|].
      + apply lcoverof_cover, square_latin, HI.
      + apply square_coverof, square_latin, HI.
  Qed.
End Latin.
