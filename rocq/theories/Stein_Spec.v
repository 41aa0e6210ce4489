(** * Steiner trees *)
From Coq Require Import ZArith List.
From Verif Require Import Base Dict Graph_Spec Trav_Spec MST_Spec.
Import ListNotations.
Open Scope Z_scope.

(** T is a tree of the graph that contains the vertices R, and W is its weight. *)
Definition steiner_tree g (R : list Z) (T : list (Z * Z)) (W : Z) : Prop :=
  exists V, NoDup V /\ (forall r, In r R -> In r V) /\ spanning_tree g V T /\ total_weight g T W.

(** v has exactly one neighbour in T. *)
Definition leaf (T : list (Z * Z)) (v : Z) : Prop := exists u, forall x, (In (v, x) T \/ In (x, v) T) <-> x = u.
