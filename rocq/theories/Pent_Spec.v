(** * Specification: partitions of an integer and Euler's product *)
From Coq Require Import ZArith List Sorting.Sorted.
From Verif Require Import Base Poly_Spec.
Import ListNotations.
Open Scope Z_scope.

(** [l] writes [n] as a sum of positive integers, the order not mattering: the parts are
    listed in non-increasing order. *)
Definition is_partition (n : Z) (l : list Z) : Prop :=
  Forall (fun x => 1 <= x) l /\ StronglySorted Z.ge l /\ zsum l = n.

(** The series 1 - x^i, and the product of those with i = 1, ..., N. *)
Definition one_minus (i : Z) (j : Z) : Z := if j =? 0 then 1 else if j =? i then -1 else 0.
Fixpoint euler_product (N : nat) : Z -> Z :=
  match N with
  | O => unit_series
  | S N' => conv (euler_product N') (one_minus (Z.of_nat (S N')))
  end.
