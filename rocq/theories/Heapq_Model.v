(** * The algorithms that use heapq, with the heap as a parameter

    [dijkstra], [dijkstra_iterator] (rosemary/graphs/algorithms/paths.py), [prim], [kruskal]
    (rosemary/graphs/algorithms/spanning_trees.py) and [chartres] (rosemary/number_theory/primes/sieves.py), with the list
    [heap] kept in the layout that heapq gives it.  The models of Paths_Model, MST_Model and Chart_Model keep the entries in
    the order in which they were pushed. *)
From Coq Require Import ZArith List Bool.
From Verif Require Import Base Py Dict Gen UF_Model Graph_Model Trav_Model Paths_Model MST_Model Chart_Model Heapq_Spec.
Import ListNotations.
Open Scope Z_scope.

(** paths.py:94-112 *)
Fixpoint hq_dij_loop (Q : heapq (Z * Z)) (g : graph) (fuel : nat) (distance : dists) (previous : prevs) (to_visit : list (Z * Z)) (visited : list Z) :
  outcome (dists * prevs) :=
  match to_visit with
  | [] => Ret (distance, previous)
  | _ =>
      match fuel with
      | O => Diverge
      | S f =>
          let '((w, u), to_visit) := pop Q to_visit in
          if mem u visited then hq_dij_loop Q g f distance previous to_visit visited
          else
            do row <- g_adj g u;
            do '(distance, previous, to_visit) <- relax (fun h d v => Ret (push Q h (d, v))) u w row (distance, previous, to_visit);
            hq_dij_loop Q g f distance previous to_visit (visited ++ [u])
      end
  end.

(** paths.py:15-112, [dijkstra]. *)
Definition hq_dijkstra (Q : heapq (Z * Z)) (g : graph) (s : Z) : outcome (dists * prevs) :=
  if dmem g s then
    hq_dij_loop Q g (S (arcs g)) (dset (all_keys g None) s (Some 0)) (all_keys g None) [(0, s)] []
  else Raise ValueError.

(** paths.py:195-199. *)
Definition hq_it_relax (Q : heapq (Z * Z * list Z)) (w : Z) (path : list Z) (row : list (Z * Z)) (st : dists * list (Z * Z * list Z)) :
  outcome (dists * list (Z * Z * list Z)) :=
  foldM (fun '(estimate, h) '(v, c) =>
    do dv <- dgetM estimate v;
    if ltx (w + c) dv then Ret (dset estimate v (Some (w + c)), push Q h (w + c, v, path ++ [v]))
    else Ret (estimate, h)) row st.

(** paths.py:186-199: up to the next value yielded, as in Paths_Model. *)
Fixpoint hq_it_pop (Q : heapq (Z * Z * list Z)) (g : graph) (fuel : nat) (estimate : dists) (h : list (Z * Z * list Z)) (visited : list Z) :
  outcome (option (Z * Z * list Z) * itstate) :=
  match h with
  | [] => Ret (None, (estimate, [], visited))
  | _ =>
      match fuel with
      | O => Diverge
      | S f =>
          let '((w, u, path), h) := pop Q h in
          if mem u visited then hq_it_pop Q g f estimate h visited
          else
            do row <- g_adj g u;
            do '(estimate, h) <- hq_it_relax Q w path row (estimate, h);
            Ret (Some (u, w, path), (estimate, h, visited ++ [u]))
      end
  end.
(** paths.py:186-199 *)
Fixpoint hq_it_loop (Q : heapq (Z * Z * list Z)) (g : graph) (fuel : nat) (st : itstate) : list (Z * Z * list Z) * gstatus :=
  match fuel with
  | O => ([], GMore)
  | S f => match (let '(estimate, h, visited) := st in hq_it_pop Q g (length h) estimate h visited) with
           | Ret (None, _) => ([], GEnded)
           | Ret (Some x, st) => let '(l, e) := hq_it_loop Q g f st in (x :: l, e)
           | Raise e => ([], GRaised e)
           | Diverge => ([], GStuck)
           end
  end.

(** paths.py:115-199, [dijkstra_iterator]. *)
Definition hq_dijkstra_iterator (Q : heapq (Z * Z * list Z)) (g : graph) (s : Z) (fuel : nat) : list (Z * Z * list Z) * gstatus :=
  if dmem g s then hq_it_loop Q g fuel (it_start g s) else ([], GRaised ValueError).

(** spanning_trees.py:104-108 *)
Definition hq_prim_scan (Q : heapq (Z * Z)) (u : Z) (visited : list Z) (row : list (Z * Z)) (st : dists * prevs * list (Z * Z)) :
  outcome (dists * prevs * list (Z * Z)) :=
  foldM (fun '(cost, previous, heap) '(v, w) =>
    if mem v visited then Ret (cost, previous, heap)
    else
      do cv <- dgetM cost v;
      if ltx w cv then Ret (dset cost v (Some w), dset previous v (Some u), push Q heap (w, v))
      else Ret (cost, previous, heap)) row st.

(** spanning_trees.py:97-108 *)
Fixpoint hq_prim_loop (Q : heapq (Z * Z)) (g : graph) (fuel : nat) (cost : dists) (previous : prevs) (heap : list (Z * Z)) (visited : list Z) :
  outcome prevs :=
  match heap with
  | [] => Ret previous
  | _ =>
      match fuel with
      | O => Diverge
      | S f =>
          let '((_, u), heap) := pop Q heap in
          if mem u visited then hq_prim_loop Q g f cost previous heap visited
          else
            let visited := visited ++ [u] in
            do row <- g_adj g u;
            do '(cost, previous, heap) <- hq_prim_scan Q u visited row (cost, previous, heap);
            hq_prim_loop Q g f cost previous heap visited
      end
  end.

(** spanning_trees.py:16-123, [prim]: the total weight, the edges in order and the dictionary [previous]. *)
Definition hq_prim (Q : heapq (Z * Z)) (g : graph) (root : option Z) : outcome (Z * list (Z * Z) * prevs) :=
  do root <- prim_root g root;
  do previous <- hq_prim_loop Q g (S (arcs g)) (dset (all_keys g None) root (Some 0)) (all_keys g None) [(0, root)] [];
  do '(total, edges) <- prim_edges g previous;
  Ret (total, sort_pairs edges, previous).

(** spanning_trees.py:184-191 *)
Fixpoint hq_kruskal_loop (Q : heapq (Z * Z * Z)) (fuel : nat) (need : Z) (h : list (Z * Z * Z)) (X : uf) (total : Z) (tree : list (Z * Z)) :
  outcome (Z * list (Z * Z)) :=
  if need <=? 0 then Ret (total, tree)
  else
    match h with
    | [] => Raise IndexError
    | _ =>
        match fuel with
        | O => Diverge
        | S f =>
            let '((w, u, v), h) := pop Q h in
            do '(a, X) <- uf_find X u;
            do '(b, X) <- uf_find X v;
            if a =? b then hq_kruskal_loop Q f need h X total tree
            else
              do X <- uf_union X u v;
              hq_kruskal_loop Q f (need - 1) h X (total + w) (tree ++ [ordered u v])
        end
    end.

(** spanning_trees.py:126-193, [kruskal]. *)
Definition hq_kruskal (Q : heapq (Z * Z * Z)) (ord : list Z -> list Z) (g : graph) : outcome (Z * list (Z * Z)) :=
  do '(total, tree) <-
    hq_kruskal_loop Q (length (warcs g)) (Z.of_nat (length (dkeys g)) - 1) (heapify Q (warcs g)) (uf_init (ord (dkeys g))) 0 [];
  Ret (total, sort_pairs tree).

(** sieves.py:352-354 *)
Definition hq_pop_step (Q : heapq entry) (candidate : Z) (s : Z * list entry) : (Z * list entry) + outcome (Z * list entry) :=
  let '(q, heap) := s in
  if q <? candidate then
    match heap with
    | [] => inr (Raise IndexError)
    | _ =>
        let '(m, rest) := pop Q heap in
        let '(q, qp, qpp) := m in
        inl (q, push Q rest (q + qp, qpp - qp, qpp))
    end
  else inr (Ret (q, heap)).
Definition hq_pop_loop (Q : heapq entry) (candidate q : Z) (heap : list entry) : outcome (Z * list entry) :=
  run (hq_pop_step Q candidate) (pop_fuel candidate heap) (q, heap).

(** sieves.py:365-373 *)
Definition hq_push_prime (Q : heapq entry) (primes : list Z) (candidate size t : Z) (heap : list entry) : outcome (Z * Z * list entry) :=
  if candidate =? t then
    do u <- pyget primes (size + 1 + 2);
    let t := u * u in
    if u mod 3 =? 2 then Ret (size + 1, t, push Q heap (t, 2 * u, 6 * u))
    else if u mod 3 =? 1 then Ret (size + 1, t, push Q heap (t, 4 * u, 6 * u))
    else Ret (size + 1, t, heap)
  else Ret (size, t, heap).

(** sieves.py:351-376 *)
Definition hq_round (Q : heapq entry) (n : Z) (s : list Z * Z * Z * Z * Z * Z * list entry)
  : (list Z * Z * Z * Z * Z * Z * list entry) + outcome (option (list Z)) :=
  let '(primes, candidate, diff, size, q, t, heap) := s in
  match heap with
  | [] => inr (Ret None)
  | _ =>
      match hq_pop_loop Q candidate q heap with
      | Ret (q, heap) =>
          if n <? candidate then inr (Ret (Some (filter (fun e => negb (e =? 0) && (e <=? n)) primes)))
          else
            match add_loop q (primes, candidate, diff) with
            | Ret (primes, candidate, diff) =>
                match hq_push_prime Q primes candidate size t heap with
                | Ret (size, t, heap) => inl (primes, candidate + diff, 6 - diff, size, q, t, heap)
                | Raise e => inr (Raise e)
                | Diverge => inr Diverge
                end
            | Raise e => inr (Raise e)
            | Diverge => inr Diverge
            end
      | Raise e => inr (Raise e)
      | Diverge => inr Diverge
      end
  end.

(** sieves.py:296-377, [chartres]. *)
Definition hq_chartres (Q : heapq entry) (n : Z) : outcome (option (list Z)) :=
  run (hq_round Q n) (bits (Z.max 0 (n + 1 - 5))) ([0; 2; 3], 5, 2, 1, 25, 25, [(25, 10, 30)]).
