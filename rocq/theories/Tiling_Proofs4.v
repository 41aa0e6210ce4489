(** * Transposing triomino tilings *)
From Coq Require Import ZArith List Bool Lia Sorting.Sorted Sorting.Permutation.
From Verif Require Import Base Lists2 Count Tiling_Model Tiling_Spec Tiling_Proofs Tiling_Proofs2 Tiling_Proofs3.
Import ListNotations.
Open Scope Z_scope.

Section Isort.
  Context {A : Type} (ltb : A -> A -> bool).
  Fixpoint insert (x : A) (l : list A) : list A :=
    match l with [] => [x] | y :: l' => if ltb x y then x :: l else y :: insert x l' end.
  Definition isort (l : list A) : list A := fold_right insert [] l.

  Lemma insert_perm x l : Permutation (insert x l) (x :: l).
  Proof.
    induction l as [|y l IH]; cbn [insert]; [reflexivity|]. destruct (ltb x y); [reflexivity|]. rewrite IH. apply perm_swap.
  Qed.
  Lemma isort_perm l : Permutation (isort l) l.
  Proof. induction l as [|x l IH]; cbn [isort fold_right]; [constructor|]. rewrite insert_perm. constructor. exact IH. Qed.

  Context (R : A -> A -> Prop).
  Hypothesis ltb_R : forall x y, ltb x y = true -> R x y.
  Hypothesis R_trans : forall x y z, R x y -> R y z -> R x z.

  Lemma insert_sorted x l : (forall y, In y l -> ltb x y = false -> R y x) -> StronglySorted R l -> StronglySorted R (insert x l).
  Proof.
    intros H S. induction S as [|y l S IH F]; cbn [insert].
    - constructor; constructor.
    - destruct (ltb x y) eqn:E.
      + apply ltb_R in E. constructor; [constructor; assumption|]. constructor; [exact E|].
        rewrite Forall_forall in *. intros z Hz. apply R_trans with y; auto.
      + constructor; [apply IH; intros z Hz; apply H; right; exact Hz|].
        rewrite Forall_forall in *. intros z Hz. apply (Permutation_in z (insert_perm x l)) in Hz. destruct Hz as [<-|Hz]; [|auto].
        apply H; [left; reflexivity|exact E].
  Qed.

  Lemma isort_sorted l : ForallOrdPairs (fun x y => ltb x y = false -> R y x) l -> StronglySorted R (isort l).
  Proof.
    induction 1 as [|x l F _ IH]; cbn [isort fold_right]; [constructor|].
    apply insert_sorted; [|exact IH]. rewrite Forall_forall in F. intros y Hy. apply F.
    apply (Permutation_in y (isort_perm l)). exact Hy.
  Qed.
End Isort.

Definition swap (c : Z * Z) : Z * Z := (snd c, fst c).
Definition tp (p : list (Z * Z)) : list (Z * Z) := isort cell_ltb (map swap p).
Definition pltb (p q : list (Z * Z)) : bool := cell_ltb (hd (0, 0) p) (hd (0, 0) q).
Definition plt (p q : list (Z * Z)) : Prop := before (hd (0, 0) p) (hd (0, 0) q).
Definition tT (T : list (list (Z * Z))) : list (list (Z * Z)) := isort pltb (map tp T).

Lemma swap_swap c : swap (swap c) = c. Proof. destruct c; reflexivity. Qed.
Lemma map_swap2 p : map swap (map swap p) = p.
Proof. rewrite map_map. rewrite <- (map_id p) at 2. apply map_ext, swap_swap. Qed.

Lemma fop_neq {A} (P : A -> A -> Prop) l : (forall x y, In x l -> In y l -> x <> y -> P x y) -> NoDup l -> ForallOrdPairs P l.
Proof.
  intros H N. revert H. induction N as [|x l Hx N IH]; intros H; constructor.
  - rewrite Forall_forall. intros y Hy. apply H; [left; reflexivity|right; exact Hy|]. intros ->. contradiction.
  - apply IH. intros a b Ha Hb. apply H; right; assumption.
Qed.

Lemma tp_sorted p : NoDup p -> StronglySorted before (tp p).
Proof.
  intros N. apply isort_sorted.
  - intros x y. apply cell_ltb_lt.
  - apply before_trans.
  - apply fop_neq.
    + intros x y _ _ Hne E. destruct (before_tot x y) as [H|[H|H]]; [apply cell_ltb_lt in H; congruence|contradiction|exact H].
    + apply NoDup_map_inj; [exact N|]. intros x y _ _ E. rewrite <- (swap_swap x), E, swap_swap. reflexivity.
Qed.

Lemma adj_swap a b : adjacent (swap a) (swap b) <-> adjacent a b.
Proof. destruct a, b. unfold adjacent, swap. cbn [fst snd]. lia. Qed.
Lemma adj_sym a b : adjacent a b <-> adjacent b a.
Proof. unfold adjacent. lia. Qed.

(** A triomino is a sorted list of three cells which is a rearrangement of a path. *)
Definition path3 (l : list (Z * Z)) : Prop := exists a b c, Permutation l [a; b; c] /\ adjacent a b /\ adjacent b c.

Lemma triomino_path p : triomino p <-> StronglySorted before p /\ path3 p.
Proof.
  split.
  - intros H. split; [apply triomino_sorted, H|]. destruct H as (a & b & c & -> & _ & _ & [(H1 & H2)|[(H1 & H2)|(H1 & H2)]]).
    + exists a, b, c. split; [reflexivity|auto].
    + exists b, a, c. split; [apply perm_swap|]. split; [apply adj_sym, H1|exact H2].
    + exists a, c, b. split; [apply perm_skip, perm_swap|]. split; [exact H1|apply adj_sym, H2].
  - intros (S & x & y & z & P & H1 & H2). pose proof (Permutation_length P) as L.
    destruct p as [|a [|b [|c [|e g]]]]; try discriminate L. clear L.
    inversion_clear S as [|? ? S' F]. inversion_clear S' as [|? ? S'' F']. inversion_clear F as [|? ? Hab F2]. inversion_clear F' as [|? ? Hbc _].
    exists a, b, c. split; [reflexivity|]. split; [exact Hab|]. split; [exact Hbc|]. clear S'' F2 Hab Hbc.
    assert (Hy : In y [a; b; c]) by (apply (Permutation_in y (Permutation_sym P)); cbn; auto).
    assert (G : forall s t, Permutation (y :: [s; t]) (y :: [x; z]) -> adjacent y s /\ adjacent y t).
    { intros s t Q. apply Permutation_cons_inv in Q.
      apply Permutation_length_2 in Q as [(-> & ->)|(-> & ->)]; split; try assumption; apply adj_sym; assumption. }
    assert (P' : Permutation [a; b; c] (y :: [x; z])) by (rewrite P; apply perm_swap).
    destruct Hy as [-> |[-> |[-> |[]]]].
    + destruct (G b c P') as (A & B). right; left. auto.
    + destruct (G a c) as (A & B); [rewrite <- P'; apply perm_swap|]. left. split; [apply adj_sym, A|exact B].
    + destruct (G a b) as (A & B).
      { rewrite <- P'. apply (Permutation_cons_append [a; b] y). }
      right; right. split; apply adj_sym; assumption.
Qed.

Lemma tp_triomino p : triomino p -> triomino (tp p).
Proof.
  intros H. apply triomino_path. apply triomino_path in H as (S & x & y & z & P & H1 & H2). split.
  - apply tp_sorted. eapply (isp_NoDup before before_irr (StronglySorted before)); [|exact S]. auto.
  - exists (swap x), (swap y), (swap z). split; [|split; apply adj_swap; assumption].
    unfold tp. rewrite isort_perm, P. reflexivity.
Qed.

Lemma tp_tp p : triomino p -> tp (tp p) = p.
Proof.
  intros H. apply (sorted_ext before before_irr before_trans).
  - apply triomino_sorted, tp_triomino, tp_triomino, H.
  - apply triomino_sorted, H.
  - unfold tp at 1. rewrite isort_perm. unfold tp. rewrite isort_perm. rewrite map_swap2. reflexivity.
Qed.

Lemma concat_perm {A} (T T' : list (list A)) : Permutation T T' -> Permutation (concat T) (concat T').
Proof.
  induction 1; cbn [concat]; [constructor|apply Permutation_app_head; assumption| |etransitivity; eassumption].
  rewrite !app_assoc. apply Permutation_app_tail, Permutation_app_comm.
Qed.

Lemma concat_tp T : Permutation (concat (map tp T)) (map swap (concat T)).
Proof.
  induction T as [|p T IH]; [constructor|]. cbn [map concat]. rewrite map_app. apply Permutation_app; [apply isort_perm|exact IH].
Qed.

Lemma tT_tiling m n T : is_tiling triomino m n T -> is_tiling triomino n m (tT T).
Proof.
  intros (A & B & N & I). assert (P : Permutation (concat (tT T)) (map swap (concat T))).
  { rewrite <- concat_tp. apply concat_perm, isort_perm. }
  assert (NS : NoDup (map swap (concat T))).
  { apply NoDup_map_inj; [exact N|]. intros x y _ _ E. rewrite <- (swap_swap x), E, swap_swap. reflexivity. }
  split; [|split; [|split]].
  - rewrite Forall_forall in *. intros p Hp. apply (Permutation_in p (isort_perm pltb _)) in Hp.
    apply in_map_iff in Hp as (q & <- & Hq). apply tp_triomino, A, Hq.
  - apply isort_sorted.
    + intros p q. apply cell_ltb_lt.
    + intros p q r. apply before_trans.
    + assert (N' : NoDup (concat (map tp T))) by (eapply Permutation_NoDup; [apply Permutation_sym, concat_tp|exact NS]).
      assert (H : forall q, In q (map tp T) -> triomino q).
      { intros q Hq. apply in_map_iff in Hq as (p & <- & Hp). rewrite Forall_forall in A. apply tp_triomino, A, Hp. }
      clear - N' H. induction (map tp T) as [|p L IH]; constructor.
      * cbn [concat] in N'. rewrite Forall_forall. intros q Hq E.
        assert (Hhd : forall r, triomino r -> In (hd (0, 0) r) r) by (intros r (a & b & c & -> & _); left; reflexivity).
        destruct (before_tot (hd (0, 0) p) (hd (0, 0) q)) as [X|[X|X]]; [apply cell_ltb_lt in X; unfold pltb in E; congruence| |exact X].
        exfalso. apply NoDup_app_inv in N'. destruct N' as (_ & _ & D). apply (D (hd (0, 0) p)).
        -- apply Hhd, H. left. reflexivity.
        -- apply in_concat. exists q. split; [exact Hq|]. rewrite X. apply Hhd, H. right. exact Hq.
      * apply IH; [cbn [concat] in N'; apply NoDup_app_inv in N'; apply N'|]. intros q Hq. apply H. right. exact Hq.
  - eapply Permutation_NoDup; [apply Permutation_sym, P|exact NS].
  - intros c. split.
    + intros Hc. apply (Permutation_in c P) in Hc. apply in_map_iff in Hc as (x & <- & Hx). apply I in Hx. destruct x. cbn in *. tauto.
    + intros Hc. apply (Permutation_in c (Permutation_sym P)). apply in_map_iff. exists (swap c). split; [apply swap_swap|].
      apply I. destruct c. cbn in *. tauto.
Qed.

Lemma tT_tT m n T : is_tiling triomino m n T -> tT (tT T) = T.
Proof.
  intros H. apply (sorted_ext plt).
  - intros p. apply before_irr.
  - intros p q r. apply before_trans.
  - apply (tT_tiling n m), (tT_tiling m n), H.
  - apply H.
  - unfold tT at 1. rewrite isort_perm. unfold tT. rewrite (Permutation_map tp (isort_perm pltb _)).
    rewrite map_map. destruct H as (A & _). rewrite Forall_forall in A.
    rewrite (map_ext_in _ (fun p => p)); [rewrite map_id; reflexivity|]. intros p Hp. apply tp_tp, A, Hp.
Qed.

Lemma triomino_transpose m n v : number_of (is_tiling triomino m n) v -> number_of (is_tiling triomino n m) v.
Proof.
  apply (number_of_bij _ _ tT tT).
  - intros T H. split; [apply tT_tiling, H|eapply tT_tT, H].
  - intros T H. split; [apply tT_tiling, H|eapply tT_tT, H].
Qed.

Lemma grid_In m n c : In c (grid m n) <-> 0 <= fst c < m /\ 0 <= snd c < n.
Proof.
  unfold grid. rewrite in_flat_map. split.
  - intros (i & Hi & H). apply in_map_iff in H as (j & <- & Hj). apply zrange_In in Hi. apply zrange_In in Hj. auto.
  - intros (A & B). destruct c as [i j]. exists i. split; [apply zrange_In, A|]. apply in_map_iff. exists j.
    split; [reflexivity|]. apply zrange_In, B.
Qed.

Lemma grid_NoDup m n : NoDup (grid m n).
Proof.
  unfold grid. pose proof (zrange_NoDup 0 m) as N. induction N as [|i l Hi N IH]; [constructor|]. cbn [flat_map].
  apply NoDup_app_intro; [|exact IH|].
  - apply NoDup_map_inj; [apply zrange_NoDup|]. intros x y _ _ [= ->]. reflexivity.
  - intros x Hx Hy. apply in_map_iff in Hx as (j & <- & _). apply in_flat_map in Hy as (i' & Hi' & Hy).
    apply in_map_iff in Hy as (j' & [= -> _] & _). contradiction.
Qed.

Lemma grid_tiling m n v : number_of (tiling (0, 0) before triomino (grid m n)) v -> number_of (is_tiling triomino m n) v.
Proof.
  apply number_of_ext. intros T. split.
  - intros (A & B & P). split; [exact A|]. split; [exact B|]. split.
    + eapply Permutation_NoDup; [apply Permutation_sym, P|apply grid_NoDup].
    + intros c. rewrite <- grid_In. split; apply Permutation_in; [exact P|apply Permutation_sym, P].
  - intros (A & B & N & I). split; [exact A|]. split; [exact B|]. apply NoDup_same_perm; [exact N|apply grid_NoDup|].
    intros c. rewrite I, grid_In. reflexivity.
Qed.

Lemma triomino_tilings_ok ord m n : dperm ord -> 1 <= m -> 1 <= n ->
  exists v, triomino_tilings ord m n = Ret v /\ number_of (is_tiling triomino m n) v.
Proof.
  intros Ho Hm Hn.
  assert (G : forall a b, 1 <= a -> 1 <= b -> exists v st, tri_backtrack ord (S (length (grid a b))) ([], O) (grid a b) = Ret (v, st) /\
    number_of (is_tiling triomino a b) v).
  { intros a b Ha Hb. destruct (tri_backtrack_ok ord Ho (S (length (grid a b))) ([], O) (grid a b)) as (v & st & E & _ & V).
    - lia.
    - apply grid_NoDup.
    - assert (H : In (0, 0) (grid a b)) by (apply grid_In; cbn; lia). intros E. rewrite E in H. destruct H.
    - intros tu v [].
    - exists v, st. split; [exact E|]. apply grid_tiling, V. }
  unfold triomino_tilings. destruct (m <? n).
  - destruct (G n m Hn Hm) as (v & st & E & V). rewrite E. exists v. split; [reflexivity|]. apply triomino_transpose, V.
  - destruct (G m n Hm Hn) as (v & st & E & V). rewrite E. exists v. split; [reflexivity|]. exact V.
Qed.

Lemma zero_cells m n : m * n <= 0 -> zrange 0 (m * n) = [].
Proof. intros H. apply zrange_nil. lia. Qed.
