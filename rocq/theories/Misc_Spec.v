(** * Specification: Bernoulli numbers *)
From Coq Require Import ZArith List QArith Qcanon.
From Verif Require Import Base Enum_Proofs.
Import ListNotations.
Open Scope Z_scope.

(** The sum of [f 0, ..., f (n-1)]. *)
Fixpoint qsum (n : nat) (f : nat -> Qc) : Qc :=
  match n with O => Q2Qc 0 | S n => (qsum n f + f n)%Qc end.

(** [l] holds [B_0, ..., B_n]: [B_0 = 1] and
    [binom(m+1,0) B_0 + ... + binom(m+1,m) B_m = 0] for [1 <= m <= n]. *)
Definition bernoulli_numbers (n : nat) (l : list Qc) : Prop :=
  length l = S n /\ nth 0 l (Q2Qc 0) = Q2Qc 1 /\
  forall m, (1 <= m <= n)%nat ->
    qsum (S m) (fun k => (Q2Qc (inject_Z (choose (S m) k)) * nth k l (Q2Qc 0))%Qc) = Q2Qc 0.
