(** * The lexicographic order on lists of integers *)
From Coq Require Import ZArith List Lia Sorting.Sorted Sorting.Permutation.
From Verif Require Import Base Lists Lists2.
Import ListNotations.
Open Scope Z_scope.

Fixpoint lexlt (l l' : list Z) : Prop :=
  match l, l' with
  | _, [] => False
  | [], _ :: _ => True
  | x :: r, y :: r' => x < y \/ (x = y /\ lexlt r r')
  end.

Lemma lexlt_irr l : ~ lexlt l l.
Proof. induction l as [|x l IH]; cbn; [tauto|]. intros [H|[_ H]]; [lia|tauto]. Qed.

Lemma lexlt_trans : forall a b c, lexlt a b -> lexlt b c -> lexlt a c.
Proof.
  induction a as [|x a IH]; intros [|y b] [|z c]; cbn; try tauto.
  intros [H|[-> H]] [H'|[-> H']]; try (left; lia). right. split; [reflexivity|]. eapply IH; eassumption.
Qed.

Lemma lexlt_tot : forall a b, lexlt a b \/ a = b \/ lexlt b a.
Proof.
  induction a as [|x a IH]; intros [|y b]; cbn; auto.
  destruct (Z.lt_total x y) as [H|[->|H]]; auto. destruct (IH b) as [H|[->|H]]; auto.
Qed.

Lemma lexlt_app p : forall a b, lexlt (p ++ a) (p ++ b) <-> lexlt a b.
Proof.
  induction p as [|x p IH]; intros a b; cbn; [tauto|]. rewrite IH. split; [|auto]. intros [H|[_ H]]; [lia|exact H].
Qed.

(** A list above [p ++ a] and not starting with [p] is above every [p ++ b]. *)
Lemma lexlt_prefix p : forall a b c, lexlt (p ++ a) c -> (exists d, c = p ++ d /\ lexlt a d) \/ lexlt (p ++ b) c.
Proof.
  induction p as [|x p IH]; intros a b c H; cbn [app] in *.
  - left. exists c. auto.
  - destruct c as [|y c]; [destruct H|]. cbn in H |- *. destruct H as [H|[-> H]]; [auto|].
    destruct (IH a b c H) as [(d & -> & Hd)|Hc]; [|auto]. left. exists d. auto.
Qed.

(** The non-increasing arrangement is the greatest, the non-decreasing one the least. *)
Lemma desc_max : forall l c, StronglySorted (fun x y => y <= x) l -> Permutation c l -> ~ lexlt l c.
Proof.
  induction l as [|x l IH]; intros c Hs Hp.
  - apply Permutation_sym, Permutation_nil in Hp. subst. cbn. auto.
  - destruct c as [|y c]; [cbn; auto|]. inversion_clear Hs as [|? ? Hs' Hf]. cbn. rewrite Forall_forall in Hf.
    assert (Hy : In y (x :: l)) by (eapply Permutation_in; [exact Hp|left; reflexivity]).
    assert (y <= x) by (destruct Hy as [->|Hy]; [lia|apply Hf, Hy]).
    intros [H1|[-> H1]]; [lia|]. apply Permutation_cons_inv in Hp. exact (IH c Hs' Hp H1).
Qed.

Lemma asc_min : forall l c, StronglySorted Z.le l -> Permutation c l -> ~ lexlt c l.
Proof.
  induction l as [|x l IH]; intros c Hs Hp.
  - destruct c; cbn; auto.
  - destruct c as [|y c]; [apply Permutation_nil in Hp; discriminate|]. inversion_clear Hs as [|? ? Hs' Hf].
    cbn. rewrite Forall_forall in Hf.
    assert (Hy : In y (x :: l)) by (eapply Permutation_in; [exact Hp|left; reflexivity]).
    assert (x <= y) by (destruct Hy as [->|Hy]; [lia|apply Hf, Hy]).
    intros [H1|[-> H1]]; [lia|]. apply Permutation_cons_inv in Hp. exact (IH c Hs' Hp H1).
Qed.

(** All words of length at most [n] over an alphabet. *)
Fixpoint words (al : list Z) (n : nat) : list (list Z) :=
  match n with
  | O => [[]]
  | S n' => [] :: flat_map (fun x => map (cons x) (words al n')) al
  end.

Lemma words_In al : forall n w, (length w <= n)%nat -> (forall x, In x w -> In x al) -> In w (words al n).
Proof.
  induction n as [|n IH]; intros [|x w] Hl H; cbn [words length] in *; try lia; try (left; reflexivity).
  right. apply in_flat_map. exists x. split; [apply H; left; reflexivity|]. apply in_map, IH; [lia|].
  intros y Hy. apply H. right. exact Hy.
Qed.

Lemma sorted_le_desc l : StronglySorted (fun x y => y <= x) l <-> StronglySorted Z.le (rev l).
Proof.
  assert (G : forall (R : Z -> Z -> Prop) l, StronglySorted R l -> StronglySorted (fun x y => R y x) (rev l)).
  { intros R. induction l0 as [|x l0 IH]; intros H; cbn; [constructor|]. inversion_clear H as [|? ? H1 H2].
    apply SSorted_app; [apply IH, H1|repeat constructor|]. intros a b Ha [<-|[]]. rewrite Forall_forall in H2.
    apply H2, in_rev. exact Ha. }
  split; intros H.
  - apply (G (fun x y => y <= x)) in H. exact H.
  - apply (G Z.le) in H. rewrite rev_involutive in H. exact H.
Qed.
