(** * Model of rosemary/graphs/algorithms/spanning_trees.py: [cheriton_tarjan] *)
From Coq Require Import ZArith List Bool.
From Verif Require Import Base Py Dict UF_Model Graph_Model Paths_Model MST_Model.
Import ListNotations.
Open Scope Z_scope.

(** The heaps are LeftistHeap objects.  A heap is modelled by the list of its
    contents, [delete_min] by [pop_min] and [merge] by concatenation: Lft_Model has the
    trees of heaps.py instead, and C83_leftist_heaps shows that the results agree.  Equal
    triples cannot be told apart. *)

(** heaps.py:95-124: the constructor fails on fewer than two values. *)
Definition heap_of (triples : list (Z * Z * Z)) : outcome (list (Z * Z * Z)) :=
  if (length triples <? 2)%nat then Raise UnboundLocalError else Ret triples.

(** spanning_trees.py:244-249. *)
Definition ct_heaps (g : graph) : outcome (list (Z * list (Z * Z * Z))) :=
  foldM (fun PQ u =>
    do row <- g_adj g u;
    do h <- heap_of (map (fun '(v, w) => (w, u, v)) row);
    Ret (dset PQ u h)) (vertices g) [].

(** spanning_trees.py:255-267.  [delete_min] returns None on an empty heap, which
    cannot be unpacked.  [fuel] is the size of the heap. *)
Fixpoint ct_pop (fuel : nat) (Tu : Z) (h : list (Z * Z * Z)) (X : uf) : outcome (Z * Z * Z * list (Z * Z * Z) * uf) :=
  match h with
  | [] => Raise TypeError
  | t :: rest =>
      match fuel with
      | O => Diverge
      | S f =>
          let '((_, x, y), h) := pop_min warc_ltb t rest in
          do '(Tx, X) <- uf_find X x;
          do '(Ty, X) <- uf_find X y;
          if Tx =? Ty then ct_pop f Tu h X
          else Ret (x, y, if Tx =? Tu then Ty else Tx, h, X)
      end
  end.

(** spanning_trees.py:251-280.  [need] is num_vertices - 1 - num_edges; [pick tree l]
    is the element of the list l that random.choice returns when the edges of tree
    have been found. *)
Fixpoint ct_loop (pick : list (Z * Z) -> list Z -> Z) (need : nat) (PQ : list (Z * list (Z * Z * Z))) (X : uf) (tree : list (Z * Z)) :
  outcome (list (Z * Z)) :=
  match need with
  | O => Ret tree
  | S need =>
      match dkeys PQ with
      | [] => Raise IndexError
      | ks =>
          do '(Tu, X) <- uf_find X (pick tree ks);
          do h <- dgetM PQ Tu;
          do '(x, y, Tv, h, X) <- ct_pop (length h) Tu h X;
          let PQ := dset PQ Tu h in
          do X <- uf_union X Tu Tv;
          do '(u, X) <- uf_find X Tu;
          let '(Tu, Tv) := if negb (u =? Tu) then (u, Tu) else (Tu, Tv) in
          do hu <- dgetM PQ Tu;
          do hv <- dgetM PQ Tv;
          ct_loop pick need (ddel (dset PQ Tu (hu ++ hv)) Tv) X (tree ++ [ordered x y])
      end
  end.

(** spanning_trees.py:282-284. *)
Definition ct_total (g : graph) (tree : list (Z * Z)) : outcome Z :=
  foldM (fun total '(u, v) => do row <- g_adj g u; do w <- dgetM row v; Ret (total + w)) tree 0.

(** spanning_trees.py:196-286. *)
Definition cheriton_tarjan (pick : list (Z * Z) -> list Z -> Z) (g : graph) : outcome (Z * list (Z * Z)) :=
  do PQ <- ct_heaps g;
  do tree <- ct_loop pick (length (vertices g) - 1) PQ (uf_init (vertices g)) [];
  do total <- ct_total g tree;
  Ret (total, sort_pairs tree).
