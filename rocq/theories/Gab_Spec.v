(** * Specification: the heap of the standard library, and the trees of least weight *)
From Coq Require Import ZArith List Sorting.Sorted Sorting.Permutation.
From Verif Require Import Base Graph_Spec MST_Spec.
Import ListNotations.
Open Scope Z_scope.

(** Weights, [None] is inf. *)
Definition le_inf (a b : option Z) : Prop := match a, b with _, None => True | None, Some _ => False | Some x, Some y => x <= y end.

(** What heappush and heappop do with a list: it stays a heap, the entry popped has the least weight, and TypeError is
    raised only if there are two entries that cannot be compared ([tie]). *)
Definition heapq {A : Type} (wt : A -> option Z) (tie : A -> A -> Prop)
  (push : list A -> A -> outcome (list A)) (pop : list A -> outcome (A * list A)) : Prop :=
  exists heap : list A -> Prop,
    (forall x, heap [x]) /\
    (forall h x, heap h ->
       (exists h', push h x = Ret h' /\ Permutation h' (x :: h) /\ heap h') \/
       (push h x = Raise TypeError /\ exists y, In y h /\ tie x y)) /\
    (forall h, heap h -> h <> [] ->
       (exists x h', pop h = Ret (x, h') /\ Permutation h (x :: h') /\ heap h' /\ forall y, In y h' -> le_inf (wt x) (wt y)) \/
       (pop h = Raise TypeError /\ exists x y, In x h /\ In y h /\ tie x y)).

(** A spanning tree, its edges being listed in order, and its weight. *)
Definition tree_of (g : list (Z * list (Z * Z))) (W : Z) (T : list (Z * Z)) : Prop :=
  spanning_tree g (map fst g) T /\ listed_in_order T /\ total_weight g T W.
