(** * Specification: tours *)
From Coq Require Import ZArith List Bool Sorting.Permutation.
From Verif Require Import Base.
Import ListNotations.
Open Scope Z_scope.

(** A tour lists each of the points 0, ..., n-1 once. *)
Definition tour (n : Z) (p : list Z) : Prop := Permutation p (zrange 0 n).

(** The point at position i of the closed walk p. *)
Definition at_ (n : Z) (p : list Z) (i : Z) : Z := nth (Z.to_nat (i mod n)) p 0.

(** The length of the closed walk p, in exact arithmetic. *)
Definition tour_length (n : Z) (dist : Z -> Z -> Z) (p : list Z) : Z :=
  zsum (map (fun i => dist (at_ n p i) (at_ n p (i + 1))) (zrange 0 n)).

(** y is one of the k points nearest to x; among points at the same distance, those with smaller numbers come first. *)
Definition nearer (dist : Z -> Z -> Z) (x z y : Z) : bool := (dist x z <? dist x y) || (dist x z =? dist x y) && (z <? y).
Definition among_nearest (n : Z) (dist : Z -> Z -> Z) (k x y : Z) : Prop := 0 <= y < n /\ y <> x /\
  Z.of_nat (length (filter (fun z => negb (z =? x) && nearer dist x z y) (zrange 0 n))) < k.
