(** * Model of rosemary/graphs/graphs.py

    Vertices are integers.  [graph_dict] is a dictionary of dictionaries, both in
    insertion order; the values of the inner dictionaries are the weights.  Copies
    are made by [copy.deepcopy], so that no two graphs share a dictionary, and a
    functional value is a faithful picture of a graph object (proved in Gob_Props). *)
From Coq Require Import ZArith List Bool.
From Verif Require Import Base Py Lists Dict.
Import ListNotations.
Open Scope Z_scope.

Notation graph := (list (Z * list (Z * Z))).

(** graphs.py:12-16, [__init__]. *)
Definition empty_graph : graph := [].

(** graphs.py:29 ([self.graph_dict[u]]): KeyError for a missing vertex. *)
Definition g_adj (g : graph) (u : Z) : outcome (list (Z * Z)) := dgetM g u.

(** graphs.py:479-498, [add_vertex]. *)
Definition add_vertex (g : graph) (u : Z) : graph := if dmem g u then g else dset g u [].

(** graphs.py:500-521, [add_vertices]. *)
Definition add_vertices (g : graph) (l : list Z) : graph := fold_left add_vertex l g.

(** graphs.py:523-550, [delete_vertex]. *)
Definition delete_vertex (g : graph) (u : Z) : graph :=
  if dmem g u then map (fun va => (fst va, ddel (snd va) u)) (ddel g u) else g.

(** graphs.py:552-578, [delete_vertices]. *)
Definition delete_vertices (g : graph) (l : list Z) : graph := fold_left delete_vertex l g.

(** graphs.py:668-672, the body of the loop of [add_edge]. *)
Definition add_arc (g : graph) (a b w : Z) : graph :=
  match dget g a with
  | None => dset g a [(b, w)]
  | Some d => dset g a (dset d b w)
  end.

(** graphs.py:635-672, [add_edge]; the forms [add_edge((u, v))] and
    [add_edge((u, v, w))] unpack to the same call. *)
Definition add_edge (g : graph) (u v w : Z) : graph := add_arc (add_arc g u v w) v u w.

(** graphs.py:674-692, [add_edges], the default weight 1 being supplied. *)
Definition add_edges (g : graph) (l : list (Z * Z * Z)) : graph :=
  fold_left (fun g e => let '(u, v, w) := e in add_edge g u v w) l g.

(** graphs.py:727-729 (and 731-733): remove [v] from [graph_dict[u]] if both are there. *)
Definition del_arc (g : graph) (u v : Z) : graph :=
  match dget g u with
  | None => g
  | Some d => dset g u (ddel d v)
  end.

(** graphs.py:694-733, [delete_edge]. *)
Definition delete_edge (g : graph) (u v : Z) : graph := del_arc (del_arc g v u) u v.

(** graphs.py:45-63 and 65-81. *)
Definition num_vertices (g : graph) : Z := Z.of_nat (length (dkeys g)).

(** graphs.py:200-238, [edge_set(weights=True)]: the triples in the order in which
    they are added to the set. *)
Definition edge_triples (g : graph) : list (Z * Z * Z) :=
  flat_map (fun ua => flat_map (fun vw => if fst vw <? fst ua then [] else [(fst ua, fst vw, snd vw)]) (snd ua)) g.

(** graphs.py:200-238, [edge_set()]; the model keeps the order of addition. *)
Definition edge_set (g : graph) : list (Z * Z) := map fst (edge_triples g).

(** graphs.py:65-81, [num_edges]: the pairs are distinct in a graph whose dictionaries
    have distinct keys, so that the length of the list is the size of the set. *)
Definition num_edges (g : graph) : Z := Z.of_nat (length (edge_set g)).

(** graphs.py:347-368, [degree]. *)
Definition degree (g : graph) (u : Z) : outcome Z := do a <- g_adj g u; Ret (Z.of_nat (length a)).

(** graphs.py:370-396, [total_degree]; [vertex_list] is any list, or the vertex set. *)
Definition total_degree (g : graph) (l : list Z) : outcome Z :=
  foldM (fun t u => do d <- degree g u; Ret (t + d)) l 0.

(** graphs.py:426-447, [neighbors] and [neighborhood] (a set). *)
Definition neighbors (g : graph) (u : Z) : outcome (list Z) := do a <- g_adj g u; Ret (dkeys a).

(** graphs.py:451-473, [closed_neighborhood]. *)
Definition closed_neighborhood (g : graph) (u : Z) : outcome (list Z) :=
  do a <- neighbors g u; Ret (if existsb (Z.eqb u) a then a else a ++ [u]).

(** graphs.py:604-606 and 631-633: [remove_vertex] and [remove_vertices]. *)
Definition remove_vertex (g : graph) (u : Z) : graph := delete_vertex g u.
Definition remove_vertices (g : graph) (l : list Z) : graph := delete_vertices g l.

(** graphs.py:735-778, [remove_edge]. *)
Definition remove_edge (g : graph) (u v : Z) : graph := del_arc (del_arc g v u) u v.

(** graphs.py:780-806, [remove_neighborhood]; [ord] is the iteration order of the set. *)
Definition remove_neighborhood (ord : list Z -> list Z) (g : graph) (u : Z) : outcome graph :=
  do a <- neighbors g u; Ret (remove_vertices g (ord a)).

(** graphs.py:808-834, [remove_closed_neighborhood]. *)
Definition remove_closed_neighborhood (ord : list Z -> list Z) (g : graph) (u : Z) : outcome graph :=
  do a <- closed_neighborhood g u; Ret (remove_vertices g (ord a)).

(** graphs.py:973-975, the inner loop of [induced_subgraph]; [ord] gives the
    iteration order of [vertex_set & self.neighbors(u)]. *)
Definition induced_row (ord : list Z -> list Z) (g : graph) (S : list Z) (h : graph) (u : Z) : outcome graph :=
  do a <- g_adj g u;
  foldM (fun h v => do w <- dgetM a v; Ret (add_edge h u v w))
    (ord (filter (fun v => dmem a v) S)) h.

(** graphs.py:941-977, [induced_subgraph]; [S] is [set(vertex_list)] in its iteration order. *)
Definition induced_subgraph (ord : list Z -> list Z) (g : graph) (S : list Z) : outcome graph :=
  foldM (induced_row ord g S) S (fold_left (fun h v => dset h v []) S empty_graph).

(** graphs.py:83-148, [vertices()]: the vertices in increasing order. *)
Definition vertices (g : graph) : list Z := zsort (dkeys g).

(** graphs.py:1009-1013: the earlier vertices [vertices[0..i-1]] are [l]. *)
Definition complement_row (g : graph) (h : graph) (u : Z) (l : list Z) : outcome graph :=
  foldM (fun h v => do a <- g_adj g v; Ret (if dmem a u then h else add_edge h u v 1)) l h.
Fixpoint complement_rows (g : graph) (h : graph) (before vs : list Z) : outcome graph :=
  match vs with
  | [] => Ret h
  | u :: vs' => do h <- complement_row g h u before; complement_rows g h (before ++ [u]) vs'
  end.

(** graphs.py:979-1015, [complement]. *)
Definition complement (g : graph) : outcome graph :=
  let vs := vertices g in
  complement_rows g (fold_left add_vertex vs empty_graph) [] vs.

(** The first element of largest (smallest) key: Python's [max(l, key=f)] and [min(l, key=f)]. *)
Fixpoint argmaxM (f : Z -> outcome Z) (best bk : Z) (l : list Z) : outcome Z :=
  match l with
  | [] => Ret best
  | x :: l' => do k <- f x; if bk <? k then argmaxM f x k l' else argmaxM f best bk l'
  end.
Fixpoint argminM (f : Z -> outcome Z) (best bk : Z) (l : list Z) : outcome Z :=
  match l with
  | [] => Ret best
  | x :: l' => do k <- f x; if k <? bk then argminM f x k l' else argminM f best bk l'
  end.

(** graphs.py:267-292 and 321-345: [maximum_degree_vertex], [minimum_degree_vertex]; [ord] is
    the iteration order of the vertex set. *)
Definition maximum_degree_vertex (ord : list Z -> list Z) (g : graph) : outcome Z :=
  match ord (dkeys g) with
  | [] => Raise ValueError
  | u :: l => do d <- degree g u; argmaxM (degree g) u d l
  end.
Definition minimum_degree_vertex (ord : list Z -> list Z) (g : graph) : outcome Z :=
  match ord (dkeys g) with
  | [] => Raise ValueError
  | u :: l => do d <- degree g u; argminM (degree g) u d l
  end.

(** graphs.py:240-265 and 294-319: [maximum_degree], [minimum_degree]. *)
Definition maximum_degree (ord : list Z -> list Z) (g : graph) : outcome Z :=
  do u <- maximum_degree_vertex ord g; degree g u.
Definition minimum_degree (ord : list Z -> list Z) (g : graph) : outcome Z :=
  do u <- minimum_degree_vertex ord g; degree g u.

(** graphs.py:132-140: the vertices in the order 'induced' (before any reversal);
    [n] bounds the number of rounds, which is the number of vertices; [ord k] is the
    iteration order of the vertex set when k vertices remain. *)
Fixpoint induced_order (ord : nat -> list Z -> list Z) (n : nat) (g : graph) : outcome (list Z) :=
  match n with
  | O => Ret []
  | S n' => do u <- minimum_degree_vertex (ord n) g;
            do l <- induced_order ord n' (delete_vertex g u);
            Ret (u :: l)
  end.
Definition vertices_induced (ord : nat -> list Z -> list Z) (g : graph) : outcome (list Z) :=
  induced_order ord (length (dkeys g)) g.

(** graphs.py:130-131: a stable sort by degree. *)
Fixpoint insert_by (f : Z -> Z) (x : Z) (l : list Z) : list Z :=
  match l with
  | [] => [x]
  | y :: l' => if f x <=? f y then x :: l else y :: insert_by f x l'
  end.
Definition sort_by (f : Z -> Z) (l : list Z) : list Z := fold_right (insert_by f) [] l.
Definition degree0 (g : graph) (u : Z) : Z := match dget g u with Some a => Z.of_nat (length a) | None => 0 end.
Definition vertices_by_degree (g : graph) : list Z := sort_by (degree0 g) (dkeys g).

(** graphs.py:1018-1048, [complete_graph]. *)
Definition complete_graph (n : Z) : graph :=
  fold_left (fun g u => fold_left (fun g v => add_edge g u v 1) (zrange 0 u) g) (zrange 0 n) empty_graph.

(** graphs.py:1172-1201, [coprime_pairs_graph]; the local gcd is Euclid's loop. *)
Definition coprime_pairs_graph (n : Z) : graph :=
  fold_left (fun g i => fold_left (fun g j => if Z.gcd i j =? 1 then add_edge g i j 1 else g) (zrange 1 i) g)
    (zrange 1 (n + 1)) empty_graph.

(** graphs.py:1254-1265, [grid_graph]. *)
Definition grid_graph (n : Z) : graph :=
  fold_left (fun g i => fold_left (fun g j =>
      let u := i * n + j in
      let g := if j <? n - 1 then add_edge g u (u + 1) 1 else g in
      if u + n <? n * n then add_edge g u (u + n) 1 else g) (zrange 0 n) g)
    (zrange 0 n) empty_graph.

(** graphs.py:1051-1070, [petersen_graph]. *)
Definition petersen_graph : graph :=
  add_edges empty_graph (map (fun e => (fst e, snd e, 1))
    [(0, 1); (0, 4); (0, 5); (1, 2); (1, 6); (2, 3); (2, 7); (3, 4);
     (3, 8); (4, 9); (5, 7); (5, 8); (6, 8); (6, 9); (7, 9)]).

(** graphs.py:1073-1106, [random_graph]; [draw u v] says whether the number drawn for
    the pair (u, v) is at most d. *)
Definition random_graph (draw : Z -> Z -> bool) (n : Z) : graph :=
  fold_left (fun g u => fold_left (fun g v => if draw u v then add_edge g u v 1 else g) (zrange (u + 1) n) g)
    (zrange 0 n) (add_vertices empty_graph (zrange 0 n)).
