(** * Specification: necklaces *)
From Coq Require Import ZArith List.
From Verif Require Import Base.
Import ListNotations.
Open Scope Z_scope.

(** A string of [n] beads with the colours 0, ..., k - 1. *)
Definition colouring (n k : Z) (w : list Z) : Prop := Z.of_nat (length w) = n /\ Forall (fun c => 0 <= c < k) w.

(** [w'] arises from [w] by a rotation: a beginning is moved to the end. *)
Definition rotation (w w' : list Z) : Prop := exists a b, w = a ++ b /\ w' = b ++ a.

(** [L] has exactly one string of each class of strings equal up to rotation. *)
Definition one_of_each (n k : Z) (L : list (list Z)) : Prop :=
  NoDup L /\ (forall r, In r L -> colouring n k r) /\
  (forall w, colouring n k w -> exists r, In r L /\ rotation r w) /\
  (forall r r', In r L -> In r' L -> rotation r r' -> r = r').
