(** * Model of rosemary/graphs/algorithms/spanning_trees.py: [prim] and [kruskal] *)
From Coq Require Import ZArith List Bool.
From Verif Require Import Base Py Dict UF_Model Graph_Model Trav_Model Paths_Model.
Import ListNotations.
Open Scope Z_scope.

(** [sorted] on a list of pairs (equal pairs cannot be told apart). *)
Fixpoint insert_pair (x : Z * Z) (l : list (Z * Z)) : list (Z * Z) :=
  match l with
  | [] => [x]
  | y :: l' => if pair_ltb x y then x :: l else y :: insert_pair x l'
  end.
Definition sort_pairs (l : list (Z * Z)) : list (Z * Z) := fold_right insert_pair [] l.

(** [min(u, v), max(u, v)] *)
Definition ordered (u v : Z) : Z * Z := (Z.min u v, Z.max u v).

(** spanning_trees.py:104-108: the loop over the neighbours of u.  Costs are integers,
    [None] is inf. *)
Definition prim_scan (u : Z) (visited : list Z) (row : list (Z * Z)) (st : dists * prevs * list (Z * Z)) :
  outcome (dists * prevs * list (Z * Z)) :=
  foldM (fun '(cost, previous, heap) '(v, w) =>
    if mem v visited then Ret (cost, previous, heap)
    else
      do cv <- dgetM cost v;
      if ltx w cv then Ret (dset cost v (Some w), dset previous v (Some u), (w, v) :: heap)
      else Ret (cost, previous, heap)) row st.

(** spanning_trees.py:97-108.  The queue is a list of pairs (cost, vertex), see [pop_min]. *)
Fixpoint prim_loop (g : graph) (fuel : nat) (cost : dists) (previous : prevs) (heap : list (Z * Z)) (visited : list Z) :
  outcome prevs :=
  match heap with
  | [] => Ret previous
  | x :: rest =>
      match fuel with
      | O => Diverge
      | S f =>
          let '((_, u), heap) := pop_min pair_ltb x rest in
          if mem u visited then prim_loop g f cost previous heap visited
          else
            let visited := visited ++ [u] in
            do row <- g_adj g u;
            do '(cost, previous, heap) <- prim_scan u visited row (cost, previous, heap);
            prim_loop g f cost previous heap visited
      end
  end.

(** spanning_trees.py:111-118 *)
Definition prim_edges (g : graph) (previous : prevs) : outcome (Z * list (Z * Z)) :=
  foldM (fun '(total, edges) '(u, p) =>
    match p with
    | None => Ret (total, edges)
    | Some v =>
        do row <- g_adj g u;
        do w <- dgetM row v;
        Ret (total + w, edges ++ [ordered u v])
    end) previous (0, []).

(** spanning_trees.py:83-85 *)
Definition prim_root (g : graph) (root : option Z) : outcome Z :=
  match root with
  | Some r => Ret r
  | None => match dkeys g with [] => Raise StopIteration | r :: _ => Ret r end
  end.

(** spanning_trees.py:83-118, the part common to both forms of the result.  At most one
    entry for each arc is pushed on the heap. *)
Definition prim_run (g : graph) (root : option Z) : outcome (Z * list (Z * Z) * prevs) :=
  do root <- prim_root g root;
  do previous <- prim_loop g (S (arcs g)) (dset (all_keys g None) root (Some 0)) (all_keys g None) [(0, root)] [];
  do '(total, edges) <- prim_edges g previous;
  Ret (total, edges, previous).

(** spanning_trees.py:16-123, [prim] with edge_list=True *)
Definition prim (g : graph) (root : option Z) : outcome (Z * list (Z * Z)) :=
  do '(total, edges, _) <- prim_run g root; Ret (total, sort_pairs edges).

(** [prim] with edge_list=False *)
Definition prim_previous (g : graph) (root : option Z) : outcome (Z * prevs) :=
  do '(total, _, previous) <- prim_run g root; Ret (total, previous).

(** Comparison of the triples (weight, u, v). *)
Definition warc_ltb (x y : Z * Z * Z) : bool :=
  let '(w, u, v) := x in let '(w', u', v') := y in
  (w <? w') || ((w =? w') && ((u <? u') || ((u =? u') && (v <? v')))).

(** spanning_trees.py:172 *)
Definition warcs (g : graph) : list (Z * Z * Z) :=
  flat_map (fun '(u, a) => map (fun '(v, w) => (w, u, v)) a) g.

(** spanning_trees.py:184-191.  [need] is the number of edges still to be found,
    num_vertices - 1 - num_edges; [fuel] bounds the size of the heap. *)
Fixpoint kruskal_loop (fuel : nat) (need : Z) (h : list (Z * Z * Z)) (X : uf) (total : Z) (tree : list (Z * Z)) :
  outcome (Z * list (Z * Z)) :=
  if need <=? 0 then Ret (total, tree)
  else
    match h with
    | [] => Raise IndexError
    | x :: rest =>
        match fuel with
        | O => Diverge
        | S f =>
            let '((w, u, v), h) := pop_min warc_ltb x rest in
            do '(a, X) <- uf_find X u;
            do '(b, X) <- uf_find X v;
            if a =? b then kruskal_loop f need h X total tree
            else
              do X <- uf_union X u v;
              kruskal_loop f (need - 1) h X (total + w) (tree ++ [ordered u v])
        end
    end.

(** spanning_trees.py:126-193, [kruskal].  [ord] is the order in which the set of the
    vertices is traversed by the constructor of UnionFind. *)
Definition kruskal (ord : list Z -> list Z) (g : graph) : outcome (Z * list (Z * Z)) :=
  do '(total, tree) <-
    kruskal_loop (length (warcs g)) (Z.of_nat (length (dkeys g)) - 1) (warcs g) (uf_init (ord (dkeys g))) 0 [];
  Ret (total, sort_pairs tree).
