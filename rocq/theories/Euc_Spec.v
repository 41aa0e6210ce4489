(** * Distances of points and computed lengths of tours *)
From Coq Require Import ZArith List.
Import ListNotations.
Open Scope Z_scope.

(** The edges x -> y of the path p, in order. *)
Definition steps (p : list Z) : list (Z * Z) := combine p (tl p).

Section Lengths.
  Context {F : Type} (zero : F) (add sub : F -> F -> F) (square root : F -> F).

  (** The distance of two points, as computed. *)
  Definition distance (p q : F * F) : F := root (add (square (sub (fst q) (fst p))) (square (sub (snd q) (snd p)))).

  (** The points with numbers i and j; the distance is computed from the later one to the earlier one. *)
  Definition point (points : list (F * F)) (i : Z) : F * F := nth (Z.to_nat i) points (zero, zero).
  Definition between (points : list (F * F)) (i j : Z) : F := distance (point points (Z.max i j)) (point points (Z.min i j)).

  (** The length of a closed tour: the closing edge and then the other edges, added up from the left. *)
  Definition computed_length (points : list (F * F)) (p : list Z) : F :=
    fold_left (fun total e => add total (between points (fst e) (snd e))) (steps p) (between points (last p 0) (hd 0 p)).
End Lengths.

(** The numbers are linearly preordered by [ltb]: "not less" is reflexive and transitive, and contains "greater". *)
Definition ordered {F : Type} (ltb : F -> F -> bool) : Prop :=
  (forall a, ltb a a = false) /\ (forall a b c, ltb b a = false -> ltb c b = false -> ltb c a = false) /\ (forall a b, ltb a b = true -> ltb b a = false).
