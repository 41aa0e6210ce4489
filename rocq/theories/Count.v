(** * Counting: "there are exactly v objects with property P" *)
From Coq Require Import ZArith List Lia Sorting.Permutation FinFun.
From Verif Require Import Base Lists2.
Import ListNotations.
Open Scope Z_scope.

Definition number_of {A} (P : A -> Prop) (v : Z) : Prop :=
  exists L, NoDup L /\ (forall x, In x L <-> P x) /\ v = Z.of_nat (length L).

Lemma number_of_unique {A} (P : A -> Prop) v w : number_of P v -> number_of P w -> v = w.
Proof.
  intros (L & N & H & ->) (M & N' & H' & ->). f_equal. apply Permutation_length. apply NoDup_same_perm; [exact N|exact N'|].
  intros x. rewrite H, H'. reflexivity.
Qed.

Lemma number_of_ext {A} (P Q : A -> Prop) v : (forall x, P x <-> Q x) -> number_of P v -> number_of Q v.
Proof. intros E (L & N & H & ->). exists L. split; [exact N|]. split; [|reflexivity]. intros x. rewrite H. apply E. Qed.

Lemma number_of_list {A} (L : list A) : NoDup L -> number_of (fun x => In x L) (Z.of_nat (length L)).
Proof. intros N. exists L. split; [exact N|]. split; [reflexivity|reflexivity]. Qed.

Lemma number_of_none {A} (P : A -> Prop) : (forall x, ~ P x) -> number_of P 0.
Proof. intros H. exists []. split; [constructor|]. split; [|reflexivity]. intros x. split; [intros []|apply H]. Qed.

Lemma number_of_one {A} (P : A -> Prop) a : (forall x, P x <-> x = a) -> number_of P 1.
Proof.
  intros H. exists [a]. split; [repeat constructor; intros []|]. split; [|reflexivity].
  intros x. rewrite H. cbn. split; [intros [->|[]]; reflexivity|intros ->; auto].
Qed.

Lemma number_of_nonneg {A} (P : A -> Prop) v : number_of P v -> 0 <= v.
Proof. intros (L & _ & _ & ->). lia. Qed.

Lemma number_of_bij {A B} (P : A -> Prop) (Q : B -> Prop) (f : A -> B) (g : B -> A) v :
  (forall x, P x -> Q (f x) /\ g (f x) = x) -> (forall y, Q y -> P (g y) /\ f (g y) = y) ->
  number_of P v -> number_of Q v.
Proof.
  intros Hf Hg (L & N & H & ->). exists (map f L). rewrite map_length. split; [|split; [|reflexivity]].
  - apply NoDup_map_inj; [exact N|]. intros x y Hx Hy E. apply H in Hx. apply H in Hy.
    rewrite <- (proj2 (Hf x Hx)), <- (proj2 (Hf y Hy)), E. reflexivity.
  - intros y. rewrite in_map_iff. split.
    + intros (x & <- & Hx). apply Hf, H, Hx.
    + intros Hy. exists (g y). split; [apply (Hg y Hy)|]. apply H, (Hg y Hy).
Qed.

Lemma number_of_or {A} (P Q : A -> Prop) v w : (forall x, P x -> Q x -> False) ->
  number_of P v -> number_of Q w -> number_of (fun x => P x \/ Q x) (v + w).
Proof.
  intros D (L & N & H & ->) (M & N' & H' & ->). exists (L ++ M). rewrite app_length. split; [|split; [|lia]].
  - apply NoDup_app_intro; [exact N|exact N'|]. intros x Hx Hy. apply (D x); [apply H, Hx|apply H', Hy].
  - intros x. rewrite in_app_iff, H, H'. reflexivity.
Qed.

Lemma number_of_sum {I A} (idx : list I) (P : I -> A -> Prop) (v : I -> Z) :
  NoDup idx -> (forall i, In i idx -> number_of (P i) (v i)) ->
  (forall i j x, In i idx -> In j idx -> P i x -> P j x -> i = j) ->
  number_of (fun x => exists i, In i idx /\ P i x) (zsum (map v idx)).
Proof.
  induction idx as [|i idx IH]; intros N H D.
  - apply number_of_none. intros x (i & [] & _).
  - inversion_clear N as [|? ? Ni N']. cbn [map]. change (zsum (v i :: map v idx)) with (v i + zsum (map v idx)).
    apply (number_of_ext (fun x => P i x \/ exists j, In j idx /\ P j x)).
    + intros x. split.
      * intros [Hx|(j & Hj & Hx)]; [exists i|exists j]; cbn; auto.
      * intros (j & [<-|Hj] & Hx); [auto|right; exists j; auto].
    + apply number_of_or.
      * intros x Hx (j & Hj & Hy). apply Ni. rewrite (D i j x); cbn; auto.
      * apply H. left. reflexivity.
      * apply IH; [exact N'| |].
        -- intros j Hj. apply H. right. exact Hj.
        -- intros j k x Hj Hk. apply D; right; assumption.
Qed.
