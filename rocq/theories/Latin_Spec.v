(** * Latin squares *)
From Coq Require Import ZArith List Sorting.Permutation.
From Verif Require Import Base.
Import ListNotations.
Open Scope Z_scope.

(** n rows, in each of which, and in each column, every number from 0 to n - 1 occurs once. *)
Definition latin_square (n : Z) (s : list (list Z)) : Prop :=
  Z.of_nat (length s) = n /\ Forall (fun row => Permutation row (zrange 0 n)) s /\
  forall j, 0 <= j < n -> Permutation (map (fun row => nth (Z.to_nat j) row 0) s) (zrange 0 n).

(** The integer for the symbol p in row j and column i: its bits say that p occurs in column i, that p occurs in row j and
    that there is a symbol in the cell. *)
Definition cell_code (n p i j : Z) : Z := 2 ^ (3 * n ^ 2 - 1 - (i * n + p)) + 2 ^ (2 * n ^ 2 - 1 - (j * n + p)) + 2 ^ (n ^ 2 - 1 - (j * n + i)).

(** The integers of a square, from its last cell to its first. *)
Definition square_codes (n : Z) (s : list (list Z)) : list Z :=
  map (fun c => let '(j, i) := (c / n, c mod n) in cell_code n (nth (Z.to_nat i) (nth (Z.to_nat j) s []) 0) i j) (rev (zrange 0 (n ^ 2))).
