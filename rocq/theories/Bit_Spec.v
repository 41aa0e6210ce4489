(** * Specification of the counting sieves *)
From Coq Require Import ZArith List Bool.
From Verif Require Import Base.
Import ListNotations.
Open Scope Z_scope.

(** [x] is not a multiple of any of the marked numbers. *)
Definition unmarked (ps : list Z) (x : Z) : bool := forallb (fun p => negb (x mod p =? 0)) ps.

(** The number of unmarked integers in [1, m]. *)
Definition unmarked_count (ps : list Z) (m : Z) : Z :=
  Z.of_nat (length (filter (unmarked ps) (zrange 1 (m + 1)))).
