(** * Model of rosemary/graphs/algorithms/cliques.py *)
From Coq Require Import ZArith List Bool.
From Verif Require Import Base Py Dict Gen Lists Graph_Model Trav_Model.
Import ListNotations.
Open Scope Z_scope.

(** Sets are lists without repetition.  [a & b] *)
Definition inter (a b : list Z) : list Z := filter (fun v => mem v b) a.
(** [a - b] *)
Definition diff (a b : list Z) : list Z := filter (fun v => negb (mem v b)) a.
(** [a.discard(u)] *)
Definition discard (a : list Z) (u : Z) : list Z := filter (fun v => negb (v =? u)) a.

(** cliques.py:40-42 and similar: the dictionary of the neighbours.  It is only looked up
    at vertices. *)
Definition nbr (g : graph) (u : Z) : list Z := match dget g u with Some a => dkeys a | None => [] end.

(** cliques.py:48-54: the while loop of [backtrack]; the recursive call on line 52 is
    unfolded up to its own loop.  [pick used allowed] is the vertex [allowed.pop()]
    returns: it may depend on all that happened before, since the loop meets no pair
    (used, allowed) twice.  The result is the list of the cliques yielded; [fuel] is the
    number of vertices allowed. *)
Fixpoint bk_loop (g : graph) (pick : list Z -> list Z -> Z) (fuel : nat) (used allowed forbidden : list Z) : list (list Z) :=
  match fuel with
  | O => []
  | S f =>
      match allowed with
      | [] => []
      | _ =>
          let u := pick used allowed in
          let allowed := discard allowed u in
          let new_allowed := inter allowed (nbr g u) in
          let new_forbidden := inter forbidden (nbr g u) in
          match new_allowed, new_forbidden with
          | [], [] => [used ++ [u]]
          | _, _ => bk_loop g pick f (used ++ [u]) new_allowed new_forbidden
          end ++ bk_loop g pick f used allowed (u :: forbidden)
      end
  end.

(** cliques.py:11-56, [bron_kerbosch]. *)
Definition bron_kerbosch (g : graph) (pick : list Z -> list Z -> Z) : list (list Z) :=
  match dkeys g with
  | [] => [[]]
  | _ => bk_loop g pick (length (dkeys g)) [] (dkeys g) []
  end.

(** ** Bit masks *)

(** cliques.py:99-102: the bit of each vertex. *)
Fixpoint bit_map (i : Z) (vs : list Z) : list (Z * Z) :=
  match vs with [] => [] | v :: vs' => (v, i) :: bit_map (Z.shiftl i 1) vs' end.

(** cliques.py:104-109: the masks of the neighbours, by bit. *)
Definition bit_neighbors (g : graph) (vs : list Z) : outcome (list (Z * Z)) :=
  foldM (fun d u =>
    do i <- dgetM (bit_map 1 vs) u;
    do a <- neighbors g u;
    do m <- foldM (fun m v => do j <- dgetM (bit_map 1 vs) v; Ret (Z.lor m j)) a 0;
    Ret (dset d i m)) vs [].

(** cliques.py:113-119; [int_to_vertex_map] is the inverse of [bit_map]. *)
Fixpoint bits_to_vertices (fuel : nat) (inv : list (Z * Z)) (used : Z) : outcome (list Z) :=
  if used =? 0 then Ret []
  else match fuel with
       | O => Diverge
       | S f => do v <- dgetM inv (Z.land used (- used));
                do l <- bits_to_vertices f inv (Z.land used (used - 1));
                Ret (v :: l)
       end.

(** cliques.py:111-133, [backtrack]: the cliques yielded.  [fuel] bounds the number of
    vertices allowed. *)
Fixpoint bkb_loop (nb inv : list (Z * Z)) (n fuel : nat) (used allowed forbidden : Z) : outcome (list (list Z)) :=
  if allowed =? 0 then Ret []
  else match fuel with
       | O => Diverge
       | S f =>
           let u := Z.land allowed (- allowed) in
           let allowed := Z.land allowed (allowed - 1) in
           do nu <- dgetM nb u;
           let new_allowed := Z.land allowed nu in
           let new_forbidden := Z.land forbidden nu in
           do l1 <- (if (new_allowed =? 0) && (new_forbidden =? 0) then
                       do c <- bits_to_vertices n inv (Z.lor used u); Ret [c]
                     else bkb_loop nb inv n f (Z.lor used u) new_allowed new_forbidden);
           do l2 <- bkb_loop nb inv n f used allowed (Z.lor forbidden u);
           Ret (l1 ++ l2)
       end.

(** cliques.py:59-135, [bron_kerbosch_binary]. *)
Definition bron_kerbosch_binary (g : graph) : outcome (list (list Z)) :=
  let vs := zsort (dkeys g) in
  let all := 2 ^ Z.of_nat (length vs) - 1 in
  do nb <- bit_neighbors g vs;
  if all =? 0 then Ret [[]]
  else bkb_loop nb (map (fun x => (snd x, fst x)) (bit_map 1 vs)) (length vs) (length vs) 0 all 0.

(** ** tomita *)

(** cliques.py:184-189: the vertex of [subgraph], in the order it is traversed, adjacent
    to the most candidates. *)
Definition best_pivot (g : graph) (candidates : list Z) (l : list Z) (u : Z) : Z :=
  snd (fold_left (fun '(max_deg, u) v =>
    let deg := Z.of_nat (length (inter (nbr g v) candidates)) in
    if max_deg <? deg then (deg, v) else (max_deg, u)) l (-1, u)).

(** cliques.py:191-194: what is pushed, first to last. *)
Fixpoint tomita_push (g : graph) (subgraph candidates used qs : list Z) : list (list Z * list Z * list Z) :=
  match qs with
  | [] => []
  | q :: qs' => (inter subgraph (nbr g q), inter candidates (nbr g q), used ++ [q]) ::
                tomita_push g subgraph (discard candidates q) used qs'
  end.

(** cliques.py:177-194.  The stack is a list with the top first.  [ord used l] is the
    order in which a set with the elements l is traversed.  [u] is the value the variable
    has from the previous iteration (0 before the first; it is always assigned). *)
Fixpoint tomita_loop (g : graph) (ord : list Z -> list Z -> list Z) (fuel : nat) (u : Z) (stack : list (list Z * list Z * list Z)) :
  list (list Z) * gstatus :=
  match stack with
  | [] => ([], GEnded)
  | (subgraph, candidates, used) :: stack =>
      match fuel with
      | O => ([], GMore)
      | S f =>
          match subgraph with
          | [] => let '(l, s) := tomita_loop g ord f u stack in (used :: l, s)
          | _ =>
              let u := best_pivot g candidates (ord used subgraph) u in
              let qs := ord used (diff candidates (nbr g u)) in
              tomita_loop g ord f u (rev (tomita_push g subgraph candidates used qs) ++ stack)
          end
      end
  end.

(** cliques.py:138-194, [tomita]. *)
Definition tomita (g : graph) (ord : list Z -> list Z -> list Z) (fuel : nat) : list (list Z) * gstatus :=
  tomita_loop g ord fuel 0 [(dkeys g, dkeys g, [])].
