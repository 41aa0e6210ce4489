(** * Model of rosemary/graphs/algorithms/traversal.py and connectivity.py *)
From Coq Require Import ZArith List Bool.
From Verif Require Import Base Py Dict Gen Graph_Model.
Import ListNotations.
Open Scope Z_scope.

Definition mem (x : Z) (l : list Z) : bool := existsb (Z.eqb x) l.

(** [max_depth is None or depth < max_depth] (traversal.py:41, 131). *)
Definition deeper (max_depth : option Z) (depth : Z) : bool :=
  match max_depth with None => true | Some m => depth <? m end.

(** traversal.py:42-47: the loop over the neighbours; the queue, the visited vertices
    and the values yielded. *)
Fixpoint bfs_scan (vs : list Z) (depth : Z) (queue : list (Z * Z)) (visited : list Z) : list (Z * Z) * list Z * list Z :=
  match vs with
  | [] => (queue, visited, [])
  | v :: vs' =>
      if mem v visited then bfs_scan vs' depth queue visited
      else let '(q, vis, ys) := bfs_scan vs' depth (queue ++ [(v, depth + 1)]) (visited ++ [v]) in (q, vis, v :: ys)
  end.

(** traversal.py:39-47: the main loop; [fuel] bounds the number of rounds. *)
Fixpoint bfs_loop (g : graph) (max_depth : option Z) (fuel : nat) (queue : list (Z * Z)) (visited : list Z) : list Z * gstatus :=
  match fuel with
  | O => ([], GMore)
  | S f =>
      match queue with
      | [] => ([], GEnded)
      | (u, depth) :: queue =>
          if deeper max_depth depth then
            match dget g u with
            | None => ([], GRaised KeyError)
            | Some a =>
                let '(q, vis, ys) := bfs_scan (dkeys a) depth queue visited in
                let '(l, st) := bfs_loop g max_depth f q vis in (ys ++ l, st)
            end
          else bfs_loop g max_depth f queue visited
      end
  end.

(** traversal.py:4-47, [breadth_first_search]. *)
Definition breadth_first_search (g : graph) (start : Z) (max_depth : option Z) (fuel : nat) : list Z * gstatus :=
  let '(l, st) := bfs_loop g max_depth fuel [(start, 0)] [start] in (start :: l, st).

(** traversal.py:82-86. *)
Fixpoint bfst_scan (vs : list Z) (u : Z) (queue : list Z) (previous : list (Z * option Z)) : list Z * list (Z * option Z) :=
  match vs with
  | [] => (queue, previous)
  | v :: vs' =>
      if dmem previous v then bfst_scan vs' u queue previous
      else bfst_scan vs' u (queue ++ [v]) (dset previous v (Some u))
  end.

(** traversal.py:80-86. *)
Fixpoint bfst_loop (g : graph) (fuel : nat) (queue : list Z) (previous : list (Z * option Z)) : outcome (list (Z * option Z)) :=
  match queue with
  | [] => Ret previous
  | u :: queue =>
      match fuel with
      | O => Diverge
      | S f => do a <- g_adj g u;
               let '(q, prev) := bfst_scan (dkeys a) u queue previous in
               bfst_loop g f q prev
      end
  end.

(** traversal.py:50-88, [breadth_first_search_tree]; each vertex enters the queue once,
    so that the number of vertices bounds the number of rounds. *)
Definition breadth_first_search_tree (g : graph) (start : Z) : outcome (list (Z * option Z)) :=
  bfst_loop g (S (length g)) [start] [(start, None)].

(** traversal.py:124-134; the head of the list is the top of the stack. *)
Fixpoint dfs_loop (g : graph) (max_depth : option Z) (fuel : nat) (stack : list (Z * Z)) (visited : list Z) : list Z * gstatus :=
  match fuel with
  | O => ([], GMore)
  | S f =>
      match stack with
      | [] => ([], GEnded)
      | (u, depth) :: stack =>
          if mem u visited then dfs_loop g max_depth f stack visited
          else
            let visited := visited ++ [u] in
            if deeper max_depth depth then
              match dget g u with
              | None => ([u], GRaised KeyError)
              | Some a =>
                  let stack := rev (map (fun v => (v, depth + 1)) (filter (fun v => negb (mem v visited)) (dkeys a))) ++ stack in
                  let '(l, st) := dfs_loop g max_depth f stack visited in (u :: l, st)
              end
            else let '(l, st) := dfs_loop g max_depth f stack visited in (u :: l, st)
      end
  end.

(** traversal.py:91-134, [depth_first_search]. *)
Definition depth_first_search (g : graph) (start : Z) (max_depth : option Z) (fuel : nat) : list Z * gstatus :=
  dfs_loop g max_depth fuel [(start, 0)] [].

(** traversal.py:167-175; the entries of the stack are (parent, vertex). *)
Fixpoint dfst_loop (g : graph) (fuel : nat) (stack : list (option Z * Z)) (previous : list (Z * option Z)) : outcome (list (Z * option Z)) :=
  match stack with
  | [] => Ret previous
  | (u, v) :: stack =>
      match fuel with
      | O => Diverge
      | S f =>
          if dmem previous v then dfst_loop g f stack previous
          else
            let previous := dset previous v u in
            do a <- g_adj g v;
            dfst_loop g f (rev (map (fun w => (Some v, w)) (dkeys a)) ++ stack) previous
      end
  end.

(** traversal.py:137-177, [depth_first_search_tree]; a round for the start and for each arc. *)
Definition depth_first_search_tree (g : graph) (start : Z) : outcome (list (Z * option Z)) :=
  dfst_loop g (S (fold_right (fun ua t => (length (snd ua) + t)%nat) O g)) [(None, start)] [].

(** [list(breadth_first_search(graph, u))]: the search yields each vertex at most once. *)
Definition bfs_list (g : graph) (u : Z) : outcome (list Z) :=
  match breadth_first_search g u None (S (S (length g))) with
  | (l, GEnded) => Ret l
  | (_, GRaised e) => Raise e
  | _ => Diverge
  end.

(** connectivity.py:42-47. *)
Fixpoint components_loop (g : graph) (vs : list Z) (visited : list Z) : outcome (list (list Z)) :=
  match vs with
  | [] => Ret []
  | u :: vs' =>
      if mem u visited then components_loop g vs' visited
      else
        do c <- bfs_list g u;
        do cs <- components_loop g vs' (visited ++ c);
        Ret (c :: cs)
  end.

(** connectivity.py:4-49, [connected_components]. *)
Definition connected_components (g : graph) : outcome (list (list Z)) := components_loop g (dkeys g) [].

(** connectivity.py:52-84, [connected_component]. *)
Definition connected_component (g : graph) (u : Z) : outcome (list Z) := bfs_list g u.

(** connectivity.py:87-97, [is_connected]; [ord] is the iteration order of the vertex set;
    sets are equal when each is contained in the other. *)
Definition is_connected (ord : list Z -> list Z) (g : graph) : outcome bool :=
  match ord (dkeys g) with
  | [] => Ret true
  | u :: _ =>
      do c <- bfs_list g u;
      Ret (forallb (fun x => mem x (dkeys g)) c && forallb (fun x => mem x c) (dkeys g))
  end.
