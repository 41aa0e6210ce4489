(** * What an alphametic is *)
From Coq Require Import ZArith List.
From Verif Require Import Base.
Import ListNotations.
Open Scope Z_scope.

(** A word is a list of letters.  Its value when the letters stand for digits: the decimal number. *)
Definition value (s : Z -> Z) (w : list Z) : Z := fold_left (fun a c => 10 * a + s c) w 0.

(** The letters of the puzzle "the sum of [lhs] equals the sum of [rhs]". *)
Definition letter (lhs rhs : list (list Z)) (c : Z) : Prop := exists w, In w (lhs ++ rhs) /\ In c w.

(** A solution: distinct letters stand for distinct digits, no word begins with a zero, and the sums agree. *)
Definition solution (lhs rhs : list (list Z)) (s : Z -> Z) : Prop :=
  (forall c, letter lhs rhs c -> 0 <= s c <= 9) /\
  (forall c c', letter lhs rhs c -> letter lhs rhs c' -> s c = s c' -> c = c') /\
  (forall c w, In (c :: w) (lhs ++ rhs) -> s c <> 0) /\
  zsum (map (value s) lhs) = zsum (map (value s) rhs).
