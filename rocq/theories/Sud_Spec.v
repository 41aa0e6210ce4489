(** * Sudoku *)
From Coq Require Import ZArith List.
Import ListNotations.
Open Scope Z_scope.

(** Two different positions 9 * row + column that may not contain the same digit: same row, same column or same box. *)
Definition peers (i j : Z) : Prop :=
  i <> j /\ (i / 9 = j / 9 \/ i mod 9 = j mod 9 \/ (i / 27 = j / 27 /\ (i mod 9) / 3 = (j mod 9) / 3)).

(** The digit at a position; 0 for an empty one, and beyond the end of the string. *)
Definition digit (a : list Z) (i : Z) : Z := nth (Z.to_nat i) a 0.

(** [s] is a filled grid that keeps the given digits of [a]. *)
Definition completion (a s : list Z) : Prop :=
  length s = 81%nat /\
  (forall i, 0 <= i < 81 -> 1 <= digit s i <= 9) /\
  (forall i, 0 <= i < 81 -> digit a i <> 0 -> digit s i = digit a i) /\
  (forall i j, 0 <= i < 81 -> 0 <= j < 81 -> peers i j -> digit s i <> digit s j).
