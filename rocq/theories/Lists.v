(** * Sorting and strictly increasing lists *)
From Coq Require Import ZArith List Lia Bool Permutation Sorted.
From Verif Require Import Base.
Import ListNotations.
Open Scope Z_scope.

(** [list.sort()] / [sorted(...)] on integers (insertion sort; Python's sort is
    stable, which is unobservable on integers). *)
Fixpoint zinsert (x : Z) (l : list Z) : list Z :=
  match l with
  | [] => [x]
  | y :: l' => if x <=? y then x :: l else y :: zinsert x l'
  end.
Fixpoint zsort (l : list Z) : list Z :=
  match l with
  | [] => []
  | x :: l' => zinsert x (zsort l')
  end.

Lemma zinsert_perm x l : Permutation (zinsert x l) (x :: l).
Proof.
  induction l as [|y l IH]; simpl; [reflexivity|]. destruct (x <=? y); [reflexivity|].
  rewrite IH. apply perm_swap.
Qed.
Lemma zsort_perm l : Permutation (zsort l) l.
Proof. induction l as [|x l IH]; simpl; [reflexivity|]. rewrite zinsert_perm. constructor. exact IH. Qed.

Lemma zinsert_sorted x l : StronglySorted Z.le l -> StronglySorted Z.le (zinsert x l).
Proof.
  induction l as [|y l IH]; simpl; intros H; [repeat constructor|].
  inversion H as [|? ? H1 H2]; subst. destruct (Z.leb_spec x y).
  - constructor; [exact H|]. constructor; [lia|]. eapply Forall_impl; [|exact H2]. simpl; intros; lia.
  - constructor; [auto|].
    rewrite Forall_forall in *. intros z Hz.
    apply (Permutation_in _ (zinsert_perm x l)) in Hz. destruct Hz as [<-|Hz]; [lia|]. auto.
Qed.
Lemma zsort_sorted l : StronglySorted Z.le (zsort l).
Proof. induction l; simpl; [constructor|]. apply zinsert_sorted. assumption. Qed.

Lemma zsort_In x l : In x (zsort l) <-> In x l.
Proof.
  split; intros H.
  - eapply Permutation_in; [apply zsort_perm|exact H].
  - eapply Permutation_in; [symmetry; apply zsort_perm|exact H].
Qed.

Lemma zsort_length l : length (zsort l) = length l.
Proof. apply Permutation_length, zsort_perm. Qed.

Lemma sorted_le_lt l : StronglySorted Z.le l -> NoDup l -> StronglySorted Z.lt l.
Proof.
  induction 1 as [|x l H1 IH H2]; intros N; [constructor|].
  inversion N; subst. constructor; [auto|].
  rewrite Forall_forall in *. intros y Hy. specialize (H2 y Hy).
  assert (x <> y) by (intros ->; contradiction). lia.
Qed.

Lemma zsort_strict l : NoDup l -> StronglySorted Z.lt (zsort l).
Proof.
  intros H. apply sorted_le_lt; [apply zsort_sorted|].
  eapply Permutation_NoDup; [symmetry; apply zsort_perm|exact H].
Qed.

Lemma sorted_lt_NoDup l : StronglySorted Z.lt l -> NoDup l.
Proof.
  induction 1 as [|x l H1 IH H2]; constructor; auto.
  intros Hin. rewrite Forall_forall in H2. specialize (H2 x Hin). lia.
Qed.

(** A strictly increasing list is determined by its elements. *)
Lemma sorted_lt_ext l l' : StronglySorted Z.lt l -> StronglySorted Z.lt l' ->
  (forall x, In x l <-> In x l') -> l = l'.
Proof.
  intros H. revert l'. induction H as [|x l H1 IH H2]; intros l' H' E.
  - destruct l' as [|y l']; [reflexivity|]. exfalso. apply (E y). left; reflexivity.
  - destruct l' as [|y l']; [exfalso; apply (E x); left; reflexivity|].
    inversion H' as [|? ? H3 H4]; subst. rewrite Forall_forall in *.
    assert (x = y).
    { assert (A : In x (y :: l')) by (apply E; left; reflexivity).
      assert (B : In y (x :: l)) by (apply E; left; reflexivity).
      destruct A as [A|A]; [auto|]. destruct B as [B|B]; [auto|].
      specialize (H2 y B). specialize (H4 x A). lia. }
    subst y. f_equal. apply IH; [assumption|].
    intros z. specialize (E z). simpl in E. split; intros Hz.
    + assert (x < z) by auto. destruct (proj1 E (or_intror Hz)); [lia|assumption].
    + assert (x < z) by auto. destruct (proj2 E (or_intror Hz)); [lia|assumption].
Qed.

Lemma sorted_le_ext l l' : StronglySorted Z.le l -> StronglySorted Z.le l' ->
  Permutation l l' -> l = l'.
Proof.
  intros H. revert l'. induction H as [|x l H1 IH H2]; intros l' H' P.
  - apply Permutation_nil in P. congruence.
  - destruct l' as [|y l']; [apply Permutation_sym, Permutation_nil in P; discriminate|].
    inversion H' as [|? ? H3 H4]; subst. rewrite Forall_forall in *.
    assert (x = y).
    { assert (A : In x (y :: l')) by (eapply Permutation_in; [exact P|left; reflexivity]).
      assert (B : In y (x :: l)) by (eapply Permutation_in; [symmetry; exact P|left; reflexivity]).
      destruct A as [A|A]; [auto|]. destruct B as [B|B]; [auto|].
      specialize (H2 y B). specialize (H4 x A). lia. }
    subst y. f_equal. apply IH; [assumption|]. eapply Permutation_cons_inv, P.
Qed.

Lemma zrange_sorted a b : StronglySorted Z.lt (zrange a b).
Proof.
  unfold zrange. generalize (Z.to_nat (b - a)) as n. intros n. generalize 0%nat as s.
  induction n as [|n IH]; intros s; simpl; constructor; [apply IH|].
  rewrite Forall_forall. intros x (i & <- & Hi%in_seq)%in_map_iff. lia.
Qed.

Lemma filter_sorted {A} (R : A -> A -> Prop) (p : A -> bool) l :
  StronglySorted R l -> StronglySorted R (filter p l).
Proof.
  induction 1 as [|x l H1 IH H2]; simpl; [constructor|].
  destruct (p x); [|exact IH]. constructor; [exact IH|].
  rewrite Forall_forall in *. intros y [Hy _]%filter_In. auto.
Qed.

Lemma zsort_filter_range l a b p : NoDup l ->
  (forall x, In x l <-> a <= x < b /\ p x = true) -> zsort l = filter p (zrange a b).
Proof.
  intros N E. apply sorted_lt_ext.
  - apply zsort_strict, N.
  - apply filter_sorted, zrange_sorted.
  - intros x. rewrite zsort_In, filter_In, zrange_In. apply E.
Qed.

Lemma sorted_app l l' : StronglySorted Z.lt l -> StronglySorted Z.lt l' ->
  (forall x y, In x l -> In y l' -> x < y) -> StronglySorted Z.lt (l ++ l').
Proof.
  intros H H'. induction H as [|x l H1 IH H2]; simpl; intros E; [exact H'|].
  constructor; [apply IH; intros; apply E; auto|].
  rewrite Forall_app. split; [exact H2|]. rewrite Forall_forall. intros y Hy. apply E; auto.
Qed.
