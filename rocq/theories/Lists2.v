(** * More list lemmas *)
From Coq Require Import ZArith List Bool Lia Sorted Permutation.
From Verif Require Import Base Lists.
Import ListNotations.
Open Scope Z_scope.

Lemma SSorted_app_inv {A} (R : A -> A -> Prop) u v : StronglySorted R (u ++ v) ->
  StronglySorted R u /\ StronglySorted R v /\ forall x y, In x u -> In y v -> R x y.
Proof.
  induction u as [|x u IH]; cbn [app]; intros S.
  - split; [constructor|]. split; [exact S|]. intros ? ? [].
  - inversion S as [|? ? S1 S2]; subst. rewrite Forall_forall in S2. destruct (IH S1) as (A1 & B & C).
    split; [|split; [exact B|]].
    + constructor; [exact A1|]. apply Forall_forall. intros y Hy. apply S2, in_or_app. left. exact Hy.
    + intros a b [<-|Ha] Hb; [|auto]. apply S2, in_or_app. right. exact Hb.
Qed.

Lemma SSorted_app {A} (R : A -> A -> Prop) u v : StronglySorted R u -> StronglySorted R v ->
  (forall x y, In x u -> In y v -> R x y) -> StronglySorted R (u ++ v).
Proof.
  intros Su Sv H. induction u as [|x u IH]; [exact Sv|]. inversion Su as [|? ? S1 S2]; subst.
  cbn [app]. constructor.
  - apply IH; [exact S1|]. intros a b Ha Hb. apply H; [right; exact Ha|exact Hb].
  - apply Forall_app. split; [exact S2|]. apply Forall_forall. intros b Hb. apply H; [left; reflexivity|exact Hb].
Qed.

Lemma NoDup_app_intro {A} (u v : list A) : NoDup u -> NoDup v -> (forall x, In x u -> ~ In x v) -> NoDup (u ++ v).
Proof.
  intros Nu Nv H. induction u as [|x u IH]; [exact Nv|]. inversion Nu as [|? ? N1 N2]; subst. cbn [app]. constructor.
  - rewrite in_app_iff. intros [X|X]; [contradiction|]. apply (H x); [left; reflexivity|exact X].
  - apply IH; [exact N2|]. intros y Hy. apply H. right. exact Hy.
Qed.

Lemma NoDup_app_inv {A} (u v : list A) : NoDup (u ++ v) -> NoDup u /\ NoDup v /\ forall x, In x u -> ~ In x v.
Proof.
  induction u as [|x u IH]; cbn [app]; intros N.
  - split; [constructor|]. split; [exact N|]. intros ? [].
  - inversion N as [|? ? N1 N2]; subst. destruct (IH N2) as (A1 & B & C). rewrite in_app_iff in N1.
    split; [constructor; tauto|]. split; [exact B|]. intros y [<-|Hy]; [tauto|auto].
Qed.

Lemma NoDup_flat_map {A B} (f : A -> list B) l : NoDup l -> (forall x, In x l -> NoDup (f x)) ->
  (forall x y z, In x l -> In y l -> In z (f x) -> In z (f y) -> x = y) -> NoDup (flat_map f l).
Proof.
  induction l as [|x l IH]; cbn [flat_map]; intros N H D; [constructor|].
  inversion N as [|? ? N1 N2]; subst. apply NoDup_app_intro.
  - apply H. left. reflexivity.
  - apply IH; [exact N2| |]; intros; [apply H|eapply D]; try (right; eassumption); eassumption.
  - intros z Hz Hz'. apply in_flat_map in Hz' as (y & Hy & Hzy).
    assert (x = y) by (eapply D; [left; reflexivity|right; exact Hy|exact Hz|exact Hzy]). subst. contradiction.
Qed.

Lemma NoDup_map_inj {A B} (f : A -> B) l : NoDup l -> (forall x y, In x l -> In y l -> f x = f y -> x = y) ->
  NoDup (map f l).
Proof.
  induction l as [|x l IH]; cbn [map]; intros N H; [constructor|]. inversion N as [|? ? N1 N2]; subst. constructor.
  - intros X. apply in_map_iff in X as (y & E & Hy). assert (x = y) by (apply H; [left; reflexivity|right; exact Hy|auto]).
    subst. contradiction.
  - apply IH; [exact N2|]. intros a b Ha Hb. apply H; right; assumption.
Qed.

Lemma flat_map_length_const {A B} (f : A -> list B) l n : (forall x, In x l -> length (f x) = n) ->
  length (flat_map f l) = (length l * n)%nat.
Proof.
  induction l as [|x l IH]; cbn [flat_map length]; intros H; [reflexivity|].
  rewrite app_length, IH, (H x); [lia|left; reflexivity|]. intros y Hy. apply H. right. exact Hy.
Qed.

(** Two duplicate-free lists with the same elements are permutations of each other. *)
Lemma NoDup_same_perm {A} (u v : list A) : NoDup u -> NoDup v -> (forall x, In x u <-> In x v) -> Permutation u v.
Proof. intros. apply NoDup_Permutation; assumption. Qed.
