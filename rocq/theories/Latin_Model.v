(** * Model of rosemary/combinatorics/optimization/exact_cover.py: [latin_square_ints] *)
From Coq Require Import ZArith List Bool.
From Verif Require Import Base.
Import ListNotations.
Open Scope Z_scope.

(** exact_cover.py:236-238: n lists of n zeros, except for a one in place i of list j. *)
Definition latin_block (n i j : Z) : list (list Z) :=
  let zeros := repeat 0 (Z.to_nat n) in
  upd (repeat zeros (Z.to_nat n)) (Z.to_nat j) (upd zeros (Z.to_nat i) 1).

(** exact_cover.py:244-247: one integer; the index i of [all_blocks[p]] is the place of a. *)
Definition latin_int (n p i j : Z) : Z :=
  let t := concat (latin_block n p i ++ latin_block n p j) in
  let val := zsum (map (fun k => 2 ^ (2 * n * n - k - 1)) (filter (fun k => negb (nth (Z.to_nat k) t 0 =? 0)) (zrange 0 (2 * n * n)))) in
  Z.lor (Z.shiftl val (n * n)) (Z.shiftl 1 (n * n - j * n - i - 1)).

(** exact_cover.py:230-249, [latin_square_ints]. *)
Definition latin_square_ints (n : Z) : list Z :=
  flat_map (fun p => flat_map (fun i => map (fun j => latin_int n p i j) (zrange 0 n)) (zrange 0 n)) (zrange 0 n).
