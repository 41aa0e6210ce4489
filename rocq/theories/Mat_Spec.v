(** * Matrices of integers and determinants *)
From Coq Require Import ZArith List.
From Verif Require Import Base.
Import ListNotations.
Open Scope Z_scope.

(** The entry in row i and column j (counted from 0). *)
Definition ent (M : list (list Z)) (i j : nat) : Z := nth j (nth i M []) 0.
(** r rows and c columns. *)
Definition shape (M : list (list Z)) (r c : nat) : Prop := length M = r /\ forall row, In row M -> length row = c.

(** The determinant of the entries a(i, j), i, j < n, by expansion along the first row: the sum of
    (-1)^j a(0, j) times the determinant without row 0 and column j. *)
Fixpoint det (n : nat) (a : nat -> nat -> Z) : Z :=
  match n with
  | O => 1
  | S n' => zsum (map (fun j => (-1) ^ Z.of_nat j * a O j * det n' (fun x y => a (S x) (if (y <? j)%nat then y else S y))) (seq 0 n))
  end.
