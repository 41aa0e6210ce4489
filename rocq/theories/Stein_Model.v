(** * Model of rosemary/graphs/algorithms/steiner_trees.py *)
From Coq Require Import ZArith List Bool.
From Verif Require Import Base Py Lists Dict Graph_Model Trav_Model Paths_Model MST_Model Color_Model Kor_Model.
Import ListNotations.
Open Scope Z_scope.

(** steiner_trees.py:85-91 and 181-187: the two dictionaries are one dictionary of pairs. *)
Definition shortest_from (g : graph) (terminals : list Z) : outcome (list (Z * (dists * prevs))) :=
  foldM (fun sp u => do r <- dijkstra g u; Ret (dset sp u r)) terminals [].

(** [itertools.combinations(l, 2)]. *)
Fixpoint combos (l : list Z) : list (Z * Z) :=
  match l with [] => [] | u :: l' => map (pair u) l' ++ combos l' end.

(** [graph[a][b]]. *)
Definition g_weight (g : graph) (a b : Z) : outcome Z := do row <- g_adj g a; dgetM row b.

(** ** Graphs in which the weight of an edge may be inf
    The distance of two terminals that are not connected is inf ([None]), and the distance network then has an edge of
    that weight. *)
Definition xgraph := list (Z * list (Z * ext)).
(** graphs.py:668-672 and 635-692, as [add_arc], [add_edge] and [add_edges]. *)
Definition xadd_arc (g : xgraph) (a b : Z) (w : ext) : xgraph :=
  match dget g a with
  | None => dset g a [(b, w)]
  | Some d => dset g a (dset d b w)
  end.
Definition xadd_edge (g : xgraph) (u v : Z) (w : ext) : xgraph := xadd_arc (xadd_arc g u v w) v u w.
Definition xadd_edges (g : xgraph) (l : list (Z * Z * ext)) : xgraph :=
  fold_left (fun g e => let '(u, v, w) := e in xadd_edge g u v w) l g.

(** spanning_trees.py:104-108: [inf < cost[v]] is False. *)
Definition xprim_scan (u : Z) (visited : list Z) (row : list (Z * ext)) (st : dists * prevs * list (Z * Z)) :
  outcome (dists * prevs * list (Z * Z)) :=
  foldM (fun '(cost, previous, heap) '(v, w) =>
    if mem v visited then Ret (cost, previous, heap)
    else
      do cv <- dgetM cost v;
      match w with
      | Some w => if ltx w cv then Ret (dset cost v (Some w), dset previous v (Some u), (w, v) :: heap) else Ret (cost, previous, heap)
      | None => Ret (cost, previous, heap)
      end) row st.
(** spanning_trees.py:97-108. *)
Fixpoint xprim_loop (g : xgraph) (fuel : nat) (cost : dists) (previous : prevs) (heap : list (Z * Z)) (visited : list Z) : outcome prevs :=
  match heap with
  | [] => Ret previous
  | x :: rest =>
      match fuel with
      | O => Diverge
      | S f =>
          let '((_, u), heap) := pop_min pair_ltb x rest in
          if mem u visited then xprim_loop g f cost previous heap visited
          else
            let visited := visited ++ [u] in
            do row <- dgetM g u;
            do '(cost, previous, heap) <- xprim_scan u visited row (cost, previous, heap);
            xprim_loop g f cost previous heap visited
      end
  end.
(** spanning_trees.py:111-118; a sum with inf in it is inf. *)
Definition xprim_edges (g : xgraph) (previous : prevs) : outcome (ext * list (Z * Z)) :=
  foldM (fun '(total, edges) '(u, p) =>
    match p with
    | None => Ret (total, edges)
    | Some v =>
        do row <- dgetM g u;
        do w <- dgetM row v;
        Ret (match total, w with Some t, Some w => Some (t + w) | _, _ => None end, edges ++ [ordered u v])
    end) previous (Some 0, []).
(** spanning_trees.py:16-123, [prim] without a root, with edge_list=True. *)
Definition xprim (g : xgraph) : outcome (ext * list (Z * Z)) :=
  match dkeys g with
  | [] => Raise StopIteration
  | root :: _ =>
      let every := map (fun u => (u, None)) (dkeys g) in
      let arcs := fold_right (fun ua t => (length (snd ua) + t)%nat) O g in
      do previous <- xprim_loop g (S arcs) (dset every root (Some 0)) every [(0, root)] [];
      do '(total, edges) <- xprim_edges g previous;
      Ret (total, sort_pairs edges)
  end.

(** steiner_trees.py:81 and 95. *)
Definition distance_network (sp : list (Z * (dists * prevs))) (terminals : list Z) : outcome xgraph :=
  do es <- mapM (fun '(u, v) => do r <- dgetM sp u; do d <- dgetM (fst r) v; Ret (u, v, d)) (combos terminals);
  Ret (xadd_edges [] es).

(** steiner_trees.py:105-107 and 216-223: the predecessors are followed; [f] is the body of the loop. *)
Fixpoint walk_back {A} (prev : prevs) (f : A -> Z -> Z -> outcome A) (fuel : nat) (a : option Z) (b : Z) (acc : A) : outcome A :=
  match a with
  | None => Ret acc
  | Some a =>
      match fuel with
      | O => Diverge
      | S k => do acc' <- f acc a b; do a' <- dgetM prev a; walk_back prev f k a' a acc'
      end
  end.

(** steiner_trees.py:103-107, one round. *)
Definition add_path (g : graph) (sp : list (Z * (dists * prevs))) (h : graph) (uv : Z * Z) : outcome graph :=
  let '(u, v) := uv in
  do r <- dgetM sp u;
  do a <- dgetM (snd r) v;
  walk_back (snd r) (fun h a b => do w <- g_weight g a b; Ret (add_edge h a b w)) (length g) a v h.

(** graphs.py:168-173, [leaves]; [ord] is the order of the set. *)
Definition leaves (ord : list Z -> list Z) (g : graph) : list Z :=
  ord (map fst (filter (fun ua => Z.of_nat (length (snd ua)) =? 1) g)).

(** graphs.py:175-198, [edges()]. *)
Definition edges (g : graph) : list (Z * Z) := sort_pairs (edge_set g).

(** steiner_trees.py:266-276.  Every round but the last deletes a vertex. *)
Fixpoint prune (ord : list Z -> list Z) (terminals : list Z) (fuel : nat) (tree : graph) : outcome graph :=
  match fuel with
  | O => Diverge
  | S k =>
      let drop := filter (fun leaf => negb (mem leaf terminals)) (leaves ord tree) in
      match drop with
      | [] => Ret tree
      | _ => prune ord terminals k (fold_left delete_vertex drop tree)
      end
  end.

(** steiner_trees.py:235-278, [_delete_nonterminal_leaves]. *)
Definition delete_nonterminal_leaves (ord : list Z -> list Z) (es : list (Z * Z)) (terminals : list Z) : outcome (list (Z * Z)) :=
  let tree := add_edges empty_graph (map (fun uv => (fst uv, snd uv, 1)) es) in
  do t <- prune ord terminals (S (length tree)) tree; Ret (edges t).

(** steiner_trees.py:281-328, [_improve]; lines 317-320 are the fold. *)
Definition improve (ord : list Z -> list Z) (g : graph) (es : list (Z * Z)) (terminals : list Z) : outcome (Z * list (Z * Z)) :=
  let tree_vertices := fold_left (fun s uv => set_add (set_add s (fst uv)) (snd uv)) es [] in
  do induced <- induced_subgraph ord g (ord tree_vertices);
  do '(_, mst_edges) <- prim induced None;
  do improved <- delete_nonterminal_leaves ord mst_edges terminals;
  do weight <- foldM (fun t uv => do w <- g_weight g (fst uv) (snd uv); Ret (t + w)) improved 0;
  Ret (weight, improved).

(** steiner_trees.py:16-113, [distance_network_heuristic]; [terminals] is a list or tuple. *)
Definition distance_network_heuristic (ord : list Z -> list Z) (g : graph) (terminals : list Z) : outcome (Z * list (Z * Z)) :=
  do sp <- shortest_from g terminals;
  do network <- distance_network sp terminals;
  do '(_, mst_edges) <- xprim network;
  do subnetwork <- foldM (add_path g sp) mst_edges empty_graph;
  do '(_, subnetwork_mst_edges) <- prim subnetwork None;
  improve ord g subnetwork_mst_edges terminals.

(** steiner_trees.py:204-207, one round of the inner loop: [min_dist] and [min_vertices]. *)
Definition nearer (sp : list (Z * (dists * prevs))) (u : Z) (st : ext * option (Z * Z)) (v : Z) : outcome (ext * option (Z * Z)) :=
  do r <- dgetM sp u;
  do d <- dgetM (fst r) v;
  match d with
  | Some x => if ltx x (fst st) then Ret (Some x, Some (u, v)) else Ret st
  | None => Ret st
  end.

(** steiner_trees.py:203-207. *)
Definition nearest (sp : list (Z * (dists * prevs))) (us vs : list Z) (st : ext * option (Z * Z)) : outcome (ext * option (Z * Z)) :=
  foldM (fun st u => foldM (nearer sp u) vs st) us st.

(** steiner_trees.py:199-223: the edges and the last [min_vertices], which may be unbound, and which keeps its
    value from one round to the next. *)
Fixpoint grow (ord : list Z -> list Z) (g : graph) (sp : list (Z * (dists * prevs))) (fuel : nat) (mv : option (Z * Z))
  (tree_edges : list (Z * Z)) (tree_vertices terminal_set : list Z) : outcome (list (Z * Z) * option (Z * Z)) :=
  match terminal_set with
  | [] => Ret (tree_edges, mv)
  | _ =>
    match fuel with
    | O => Diverge
    | S k =>
        do '(_, mv) <- nearest sp (ord (filter (fun u => negb (mem u tree_vertices)) terminal_set)) (ord tree_vertices) (None, mv);
        do '(u, v) <- bound mv;
        do r <- dgetM sp u;
        do a <- dgetM (snd r) v;
        do '(es, vs) <- walk_back (snd r) (fun '(es, vs) a b => Ret (es ++ [if a <? b then (a, b) else (b, a)], set_add vs a)) (length g) a v
                          (tree_edges, set_add tree_vertices u);
        grow ord g sp k mv es vs (without terminal_set u)
    end
  end.

(** steiner_trees.py:191-230: [best] is the pair (best_weight, best_edges), unbound at first. *)
Definition mcp_round (ord : list Z -> list Z) (g : graph) (sp : list (Z * (dists * prevs))) (fuel : nat) (terminals : list Z)
  (st : option (Z * list (Z * Z)) * option (Z * Z)) (root : Z) : outcome (option (Z * list (Z * Z)) * option (Z * Z)) :=
  let '(best, mv) := st in
  do '(es, mv) <- grow ord g sp fuel mv [] [root] (without terminals root);
  do '(w, t) <- improve ord g es terminals;
  Ret (match best with Some (bw, _) => if w <? bw then Some (w, t) else best | None => Some (w, t) end, mv).

(** steiner_trees.py:116-232, [minimum_cost_paths_heuristic], with at most [fuel] rounds of the loop on line 199. *)
Definition mcp_upto (fuel : nat) (ord : list Z -> list Z) (g : graph) (terminals : list Z) : outcome (Z * list (Z * Z)) :=
  do sp <- shortest_from g terminals;
  do '(best, _) <- foldM (mcp_round ord g sp fuel terminals) terminals (None, None);
  bound best.

Definition minimum_cost_paths_heuristic (ord : list Z -> list Z) (g : graph) (terminals : list Z) : outcome (Z * list (Z * Z)) :=
  mcp_upto (S (length terminals)) ord g terminals.
