(** * Degree sequences *)
From Coq Require Import ZArith List.
Import ListNotations.
Open Scope Z_scope.

(** The number of y < n with r y. *)
Definition how_many (n : nat) (r : nat -> bool) : Z := Z.of_nat (length (filter r (seq 0 n))).

(** S is the sequence of degrees of a simple graph with the vertices 0, ..., len(S) - 1: [adj] is
    its adjacency relation, without loops. *)
Definition graphic (S : list Z) : Prop :=
  exists adj : nat -> nat -> bool,
    (forall x y, adj x y = adj y x) /\ (forall x, adj x x = false) /\
    forall x d, nth_error S x = Some d -> d = how_many (length S) (adj x).
