(** * Tilings of a rectangular board *)
From Coq Require Import ZArith List Sorting.Sorted Sorting.Permutation.
Import ListNotations.
Open Scope Z_scope.

(** Cells are (row, column). *)
Notation rc := (Z * Z)%type.

Definition adjacent (a b : rc) : Prop := Z.abs (fst a - fst b) + Z.abs (snd a - snd b) = 1.

(** Reading order. *)
Definition before (a b : rc) : Prop := fst a < fst b \/ (fst a = fst b /\ snd a < snd b).

(** Pieces are listed in reading order. *)
Definition domino (p : list rc) : Prop := exists a b, p = [a; b] /\ before a b /\ adjacent a b.

(** Three distinct cells forming a connected shape (the I and the L). *)
Definition triomino (p : list rc) : Prop :=
  exists a b c, p = [a; b; c] /\ before a b /\ before b c /\
    ((adjacent a b /\ adjacent b c) \/ (adjacent a b /\ adjacent a c) \/ (adjacent a c /\ adjacent b c)).

(** Each cell of the m x n board is covered exactly once, and nothing else is. *)
Definition covers_board (m n : Z) (T : list (list rc)) : Prop :=
  NoDup (concat T) /\ forall x, In x (concat T) <-> 0 <= fst x < m /\ 0 <= snd x < n.

(** A tiling is a set of pieces, listed in the reading order of their first cells. *)
Definition is_tiling (piece : list rc -> Prop) (m n : Z) (T : list (list rc)) : Prop :=
  Forall piece T /\ StronglySorted (fun p q => before (hd (0, 0) p) (hd (0, 0) q)) T /\ covers_board m n T.
