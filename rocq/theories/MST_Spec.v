(** * Minimum spanning trees *)
From Coq Require Import ZArith List Sorting.Sorted.
From Verif Require Import Base Dict Graph_Spec Trav_Spec.
Import ListNotations.
Open Scope Z_scope.

(** u and v are joined by a path whose edges are in T; the edges have no direction. *)
Inductive linked (T : list (Z * Z)) : Z -> Z -> Prop :=
| linked_edge u v : In (u, v) T -> linked T u v
| linked_refl u : linked T u u
| linked_sym u v : linked T u v -> linked T v u
| linked_trans u v w : linked T u v -> linked T v w -> linked T u w.

(** T is a spanning tree of the vertices V: edges of g between vertices of V that join all
    of them, one less than there are vertices. *)
Definition spanning_tree g (V : list Z) (T : list (Z * Z)) : Prop :=
  (forall u v, In (u, v) T -> In u V /\ In v V /\ edge g u v) /\
  (forall u v, In u V -> In v V -> linked T u v) /\
  S (length T) = length V.

(** W is the total weight of the edges of T. *)
Inductive total_weight g : list (Z * Z) -> Z -> Prop :=
| tw_nil : total_weight g [] 0
| tw_cons u v w T W : weight g u v = Some w -> total_weight g T W -> total_weight g ((u, v) :: T) (w + W).

Definition minimum_spanning_tree g V T W : Prop :=
  spanning_tree g V T /\ total_weight g T W /\
  forall T' W', spanning_tree g V T' -> total_weight g T' W' -> W <= W'.

(** The edges are written with the smaller end first, and listed in increasing order. *)
Definition listed_in_order (T : list (Z * Z)) : Prop :=
  (forall u v, In (u, v) T -> u < v) /\
  StronglySorted (fun x y => fst x < fst y \/ (fst x = fst y /\ snd x < snd y)) T.

Definition connected g : Prop := forall u v, vertex g u -> vertex g v -> reachable g u v.

(** The edges of a dictionary of parents. *)
Definition parent_edges (prev : list (Z * option Z)) : list (Z * Z) :=
  flat_map (fun '(u, p) => match p with Some v => [(u, v)] | None => [] end) prev.

(** V lists the vertices that can be reached from s, each once. *)
Definition component_of g s (V : list Z) : Prop := NoDup V /\ forall v, In v V <-> reachable g s v.
