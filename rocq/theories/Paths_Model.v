(** * Model of rosemary/graphs/algorithms/paths.py *)
From Coq Require Import ZArith List Bool.
From Verif Require Import Base Py Dict Gen Pairing_Model Graph_Model Trav_Model.
Import ListNotations.
Open Scope Z_scope.

(** Distances: [None] is inf.  Weights are integers. *)
Notation ext := (option Z).

(** [x < d] for a number x and a distance d. *)
Definition ltx (x : Z) (d : ext) : bool := match d with None => true | Some y => x <? y end.

(** heapq.heappop on a heap of entries ordered by [ltb]: the least entry and the others.
    Equal entries are interchangeable, so that the layout of the heap is not modelled. *)
Fixpoint pop_min {A} (ltb : A -> A -> bool) (x : A) (l : list A) : A * list A :=
  match l with
  | [] => (x, [])
  | y :: l' =>
      if ltb y x then let '(m, r) := pop_min ltb y l' in (m, x :: r)
      else let '(m, r) := pop_min ltb x l' in (m, y :: r)
  end.

(** Comparison of pairs, of lists and of triples. *)
Definition pair_ltb (x y : Z * Z) : bool := (fst x <? fst y) || ((fst x =? fst y) && (snd x <? snd y)).
Fixpoint list_ltb (x y : list Z) : bool :=
  match x, y with
  | _, [] => false
  | [], _ :: _ => true
  | a :: x', b :: y' => (a <? b) || ((a =? b) && list_ltb x' y')
  end.
Definition triple_ltb (x y : Z * Z * list Z) : bool :=
  let '(w, u, p) := x in let '(w', u', p') := y in
  (w <? w') || ((w =? w') && ((u <? u') || ((u =? u') && list_ltb p p'))).

Notation dists := (list (Z * ext)).
Notation prevs := (list (Z * option Z)).

(** paths.py:101-110, 297-305, 402-410: the loop over the neighbours of u, whose distance
    is w; [push h d v] inserts v with key d into the queue h.  The row [graph_dict[u]] is
    traversed as pairs (neighbour, weight). *)
Definition relax {H} (push : H -> Z -> Z -> outcome H) (u w : Z) (row : list (Z * Z)) (st : dists * prevs * H) :
  outcome (dists * prevs * H) :=
  foldM (fun '(distance, previous, h) '(v, c) =>
    do dv <- dgetM distance v;
    if ltx (w + c) dv then
      do h <- push h (w + c) v;
      Ret (dset distance v (Some (w + c)), dset previous v (Some u), h)
    else Ret (distance, previous, h)) row st.

(** [{u: x for u in graph_dict}] *)
Definition all_keys {A} (g : graph) (x : A) : list (Z * A) := map (fun u => (u, x)) (dkeys g).

(** The number of arcs; a vertex is inserted into the queue at most once for each. *)
Definition arcs (g : graph) : nat := fold_right (fun ua t => (length (snd ua) + t)%nat) O g.

(** paths.py:94-112; the queue is a list of (distance, vertex). *)
Fixpoint dij_loop (g : graph) (fuel : nat) (distance : dists) (previous : prevs) (to_visit : list (Z * Z)) (visited : list Z) :
  outcome (dists * prevs) :=
  match to_visit with
  | [] => Ret (distance, previous)
  | x :: rest =>
      match fuel with
      | O => Diverge
      | S f =>
          let '((w, u), to_visit) := pop_min pair_ltb x rest in
          if mem u visited then dij_loop g f distance previous to_visit visited
          else
            do row <- g_adj g u;
            do '(distance, previous, to_visit) <- relax (fun h d v => Ret ((d, v) :: h)) u w row (distance, previous, to_visit);
            dij_loop g f distance previous to_visit (visited ++ [u])
      end
  end.

(** paths.py:15-112, [dijkstra]. *)
Definition dijkstra (g : graph) (s : Z) : outcome (dists * prevs) :=
  if dmem g s then
    dij_loop g (S (arcs g)) (dset (all_keys g None) s (Some 0)) (all_keys g None) [(0, s)] []
  else Raise ValueError.

(** paths.py:195-199. *)
Definition it_relax (w : Z) (path : list Z) (row : list (Z * Z)) (st : dists * list (Z * Z * list Z)) :
  outcome (dists * list (Z * Z * list Z)) :=
  foldM (fun '(estimate, h) '(v, c) =>
    do dv <- dgetM estimate v;
    if ltx (w + c) dv then Ret (dset estimate v (Some (w + c)), (w + c, v, path ++ [v]) :: h)
    else Ret (estimate, h)) row st.

(** The state of the generator [dijkstra_iterator]: estimates, queue, visited vertices. *)
Notation itstate := (dists * list (Z * Z * list Z) * list Z)%type.

(** paths.py:186-199: up to the next value yielded ([None] when the generator returns).
    The neighbours are scanned at once instead of when the generator is resumed.
    [fuel] is the number of entries of the queue. *)
Fixpoint it_pop (g : graph) (fuel : nat) (estimate : dists) (h : list (Z * Z * list Z)) (visited : list Z) :
  outcome (option (Z * Z * list Z) * itstate) :=
  match h with
  | [] => Ret (None, (estimate, [], visited))
  | x :: rest =>
      match fuel with
      | O => Diverge
      | S f =>
          let '((w, u, path), h) := pop_min triple_ltb x rest in
          if mem u visited then it_pop g f estimate h visited
          else
            do row <- g_adj g u;
            do '(estimate, h) <- it_relax w path row (estimate, h);
            Ret (Some (u, w, path), (estimate, h, visited ++ [u]))
      end
  end.
Definition it_next (g : graph) (st : itstate) : outcome (option (Z * Z * list Z) * itstate) :=
  let '(estimate, h, visited) := st in it_pop g (length h) estimate h visited.

(** paths.py:174-184 *)
Definition it_start (g : graph) (s : Z) : itstate := (dset (all_keys g None) s (Some 0), [(0, s, [s])], []).

Fixpoint it_loop (g : graph) (fuel : nat) (st : itstate) : list (Z * Z * list Z) * gstatus :=
  match fuel with
  | O => ([], GMore)
  | S f => match it_next g st with
           | Ret (None, _) => ([], GEnded)
           | Ret (Some x, st) => let '(l, e) := it_loop g f st in (x :: l, e)
           | Raise e => ([], GRaised e)
           | Diverge => ([], GStuck)
           end
  end.

(** paths.py:115-199, [dijkstra_iterator]. *)
Definition dijkstra_iterator (g : graph) (s : Z) (fuel : nat) : list (Z * Z * list Z) * gstatus :=
  if dmem g s then it_loop g fuel (it_start g s) else ([], GRaised ValueError).

(** paths.py:285-288: the least bucket not before [min_weight]; [itertools.count] never
    ends when there is none. *)
Definition next_bucket (buckets : list (Z * list Z)) (min_weight : Z) : outcome Z :=
  let top := fold_right Z.max min_weight (dkeys buckets) in
  match find (dmem buckets) (zrange min_weight (top + 1)) with Some w => Ret w | None => Diverge end.

(** paths.py:305, [buckets[d] += [v]] on a defaultdict(list). *)
Definition bucket_push (buckets : list (Z * list Z)) (d v : Z) : outcome (list (Z * list Z)) :=
  Ret (dset buckets d (match dget buckets d with Some l => l | None => [] end ++ [v])).

(** paths.py:292-305: the loop over the list [buckets[min_weight]] from position i; the
    list may grow during the loop. *)
Fixpoint bucket_scan (g : graph) (fuel : nat) (i : nat) (min_weight : Z) (estimate : dists) (previous : prevs)
  (buckets : list (Z * list Z)) (visited : list Z) : outcome (dists * prevs * list (Z * list Z) * list Z) :=
  do vertices <- dgetM buckets min_weight;
  match nth_error vertices i with
  | None => Ret (estimate, previous, buckets, visited)
  | Some u =>
      match fuel with
      | O => Diverge
      | S f =>
          if mem u visited then bucket_scan g f (S i) min_weight estimate previous buckets visited
          else
            do row <- g_adj g u;
            do '(estimate, previous, buckets) <- relax bucket_push u min_weight row (estimate, previous, buckets);
            bucket_scan g f (S i) min_weight estimate previous buckets (visited ++ [u])
      end
  end.

(** paths.py:284-307. *)
Fixpoint bucket_loop (g : graph) (fuel : nat) (min_weight : Z) (estimate : dists) (previous : prevs)
  (buckets : list (Z * list Z)) (visited : list Z) : outcome (dists * prevs) :=
  match buckets with
  | [] => Ret (estimate, previous)
  | _ :: _ =>
      match fuel with
      | O => Diverge
      | S f =>
          do min_weight <- next_bucket buckets min_weight;
          do '(estimate, previous, buckets, visited) <- bucket_scan g (S (arcs g)) O min_weight estimate previous buckets visited;
          bucket_loop g f min_weight estimate previous (ddel buckets min_weight) visited
      end
  end.

(** paths.py:202-309, [dijkstra_buckets]. *)
Definition dijkstra_buckets (g : graph) (s : Z) : outcome (dists * prevs) :=
  if dmem g s then
    bucket_loop g (S (arcs g)) 0 (dset (all_keys g None) s (Some 0)) [(s, None)] [(0, [s])] []
  else Raise ValueError.

(** paths.py:407-410. *)
Definition ph_push (h : pheap) (d v : Z) : outcome pheap :=
  if dmem (plookup h) v then ph_decrease_key h v d else ph_insert h d v.

(** paths.py:394-410. *)
Fixpoint dph_loop (g : graph) (fuel : nat) (distance : dists) (previous : prevs) (heap : pheap) : outcome (dists * prevs) :=
  do '(node, heap) <- ph_delete_min heap;
  match node with
  | None => Ret (distance, previous)
  | Some (w, u) =>
      match fuel with
      | O => Diverge
      | S f =>
          do row <- g_adj g u;
          do '(distance, previous, heap) <- relax ph_push u w row (distance, previous, heap);
          dph_loop g f distance previous heap
      end
  end.

(** paths.py:312-412, [dijkstra_pairing_heap]. *)
Definition dijkstra_pairing_heap (g : graph) (s : Z) : outcome (dists * prevs) :=
  if dmem g s then
    do heap <- ph_insert ph_empty 0 s;
    dph_loop g (length g) (dset (all_keys g None) s (Some 0)) [(s, None)] heap
  else Raise ValueError.

(** paths.py:508-514; [cost[u]] is read again for each neighbour. *)
Definition bf_relax (u : Z) (row : list (Z * Z)) (st : dists * prevs * list Z) : outcome (dists * prevs * list Z) :=
  foldM (fun '(cost, previous, stack) '(v, c) =>
    do cu <- dgetM cost u;
    do cv <- dgetM cost v;
    match cu with
    | None => Ret (cost, previous, stack)
    | Some cu =>
        if ltx (cu + c) cv then
          Ret (dset cost v (Some (cu + c)), dset previous v (Some u), if mem v stack then stack else stack ++ [v])
        else Ret (cost, previous, stack)
    end) row st.

(** paths.py:498-514; the set [stack_elements] holds the elements of the queue. *)
Fixpoint bf_loop (g : graph) (fuel : nat) (count : list (Z * Z)) (cost : dists) (previous : prevs) (stack : list Z) :
  outcome (dists * prevs) :=
  match stack with
  | [] => Ret (cost, previous)
  | u :: stack =>
      match fuel with
      | O => Diverge
      | S f =>
          do k <- dgetM count u;
          let count := dset count u (k + 1) in
          if Z.of_nat (length g) + 1 <=? k + 1 then Raise ValueError
          else
            do row <- g_adj g u;
            do '(cost, previous, stack) <- bf_relax u row (cost, previous, stack);
            bf_loop g f count cost previous stack
      end
  end.

(** paths.py:415-516, [bellman_ford]; each round adds one to a count, and no count exceeds
    the number of vertices plus one. *)
Definition bellman_ford (g : graph) (s : Z) : outcome (dists * prevs) :=
  if dmem g s then
    bf_loop g (S (length g * length g)) (all_keys g 0) (dset (all_keys g None) s (Some 0)) (all_keys g None) [s]
  else Raise ValueError.

(** paths.py:597-604: one step of a search; [estimate] and [path] of this side, [other] of
    the other side. *)
Definition bi_step (g : graph) (side other : list (Z * (Z * list Z)) * itstate) :
  outcome (option (bool * (list (Z * (Z * list Z)) * itstate))) :=
  let '(est, st) := side in
  do '(x, st) <- it_next g st;
  match x with
  | None => Ret None
  | Some (v, d, p) => Ret (Some (dmem (fst other) v, (dset est v (d, p), st)))
  end.

(** paths.py:595-607: the searches alternate; the dictionaries estimate and path of a side
    are one dictionary of pairs.  [None] when a search is exhausted. *)
Fixpoint bi_loop (g : graph) (fuel : nat) (fw bw : list (Z * (Z * list Z)) * itstate) :
  outcome (option (list (Z * (Z * list Z)) * list (Z * (Z * list Z)))) :=
  match fuel with
  | O => Diverge
  | S f =>
      do r <- bi_step g fw bw;
      match r with
      | None => Ret None
      | Some (true, fw) => Ret (Some (fst fw, fst bw))
      | Some (false, fw) =>
          do r <- bi_step g bw fw;
          match r with
          | None => Ret None
          | Some (true, bw) => Ret (Some (fst fw, fst bw))
          | Some (false, bw) => bi_loop g f fw bw
          end
      end
  end.

(** paths.py:612-620. *)
Definition bi_best (g : graph) (t : Z) (fe be : list (Z * (Z * list Z))) : outcome (ext * list Z) :=
  foldM (fun acc '(u, (du, pu)) =>
    do row <- g_adj g u;
    foldM (fun '(best_len, best_path) '(v, c) =>
      match dget be v with
      | None => Ret (best_len, best_path)
      | Some (dv, pv) =>
          let d := du + c + dv in
          if ltx d best_len then Ret (Some d, pu ++ rev (tl pv) ++ [t]) else Ret (best_len, best_path)
      end) row acc) fe (None, []).

(** The result of [dijkstra_bidirectional]: a pair, or the bare number inf. *)
Inductive bi_result := BiPair (len : ext) (path : list Z) | BiInf.

(** paths.py:524-622, [dijkstra_bidirectional]; every two steps visit two vertices. *)
Definition dijkstra_bidirectional (g : graph) (s t : Z) : outcome bi_result :=
  if negb (dmem g s) then Raise ValueError
  else if negb (dmem g t) then Raise ValueError
  else
    do r <- bi_loop g (S (length g)) ([], it_start g s) ([], it_start g t);
    match r with
    | None => Ret BiInf
    | Some (fe, be) => do '(l, p) <- bi_best g t fe be; Ret (BiPair l p)
    end.

(** Sums and comparison of distances. *)
Definition addx (x y : ext) : ext := match x, y with Some a, Some b => Some (a + b) | _, _ => None end.
Definition ltxx (x y : ext) : bool := match x with Some a => ltx a y | None => false end.

(** Dictionaries keyed by pairs of vertices, all of which get a value in the first loop,
    are functions. *)
Definition upd2 {A} (f : Z -> Z -> A) (v w : Z) (x : A) : Z -> Z -> A :=
  fun a b => if (a =? v) && (b =? w) then x else f a b.

(** paths.py:711-720. *)
Definition fw_init (g : graph) : (Z -> Z -> ext) * (Z -> Z -> option Z) :=
  ((fun u v => if u =? v then Some 0 else match dget g u with Some a => dget a v | None => None end),
   (fun u v => if u =? v then None else match dget g u with Some a => if dmem a v then Some u else None | None => None end)).

(** paths.py:729-731. *)
Definition fw_relax (u : Z) (st : (Z -> Z -> ext) * (Z -> Z -> option Z)) (vw : Z * Z) : (Z -> Z -> ext) * (Z -> Z -> option Z) :=
  let '(dist, pred) := st in let '(v, w) := vw in
  if ltxx (addx (dist v u) (dist u w)) (dist v w)
  then (upd2 dist v w (addx (dist v u) (dist u w)), upd2 pred v w (pred u w))
  else st.

(** paths.py:723-731. *)
Definition fw_round (vertices : list Z) (st : (Z -> Z -> ext) * (Z -> Z -> option Z)) (u : Z) :
  outcome ((Z -> Z -> ext) * (Z -> Z -> option Z)) :=
  if match fst st u u with Some d => d <? 0 | None => false end then Raise ValueError
  else Ret (fold_left (fw_relax u) (list_prod vertices vertices) st).

(** paths.py:630-733, [floyd_warshall]. *)
Definition floyd_warshall (g : graph) : outcome ((Z -> Z -> ext) * (Z -> Z -> option Z)) :=
  foldM (fw_round (dkeys g)) (dkeys g) (fw_init g).
