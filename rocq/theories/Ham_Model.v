(** * Model of rosemary/graphs/algorithms/hamiltonian_paths.py *)
From Coq Require Import ZArith List Bool.
From Verif Require Import Base Py Dict Lists Graph_Model Trav_Model Cliq_Model.
Import ListNotations.
Open Scope Z_scope.

(** hamiltonian_paths.py:306-318: the traversal of [is_connected2]; [stack] has its top first.
    [ord] is the order in which a set is iterated. *)
Fixpoint con_loop (g : graph) (ord : list Z -> list Z) (allowed : list Z) (fuel : nat) (stack visited : list Z) : outcome (list Z) :=
  match fuel with
  | O => Diverge
  | S f =>
      match stack with
      | [] => Ret visited
      | u :: stack =>
          if mem u visited then con_loop g ord allowed f stack visited
          else con_loop g ord allowed f (rev (filter (fun v => negb (mem v visited)) (ord (inter (nbr g u) allowed))) ++ stack) (u :: visited)
      end
  end.

(** hamiltonian_paths.py:300-320, [is_connected2]. *)
Definition is_connected2 (g : graph) (ord : list Z -> list Z) (allowed : list Z) : outcome bool :=
  match ord allowed with
  | [] => Ret true
  | u :: _ =>
      do visited <- con_loop g ord allowed (2 + length allowed * length allowed) [u] [];
      Ret (forallb (fun v => mem v allowed) visited && forallb (fun v => mem v visited) allowed)
  end.

(** hamiltonian_paths.py:20-33 ([con] = true) and 58-70 ([con] = false), the generator [extend]; the
    list of the values it yields.  [used] and [unused] are restored after each step; the order in which
    sets are iterated may depend on what happened before ([ord used]).  [fuel] exceeds the number of unused vertices. *)
Fixpoint hextend (g : graph) (ord : list Z -> list Z -> list Z) (con : bool) (fuel : nat) (used : list Z) (last : Z) (unused : list Z)
    : outcome (list (list Z)) :=
  match fuel with
  | O => Diverge
  | S f =>
      match unused with
      | [] => Ret [used]
      | _ =>
          do c <- if con then is_connected2 g (ord used) unused else Ret true;
          if c then
            foldM (fun l v => do m <- hextend g ord con f (used ++ [v]) v (discard unused v); Ret (l ++ m))
              (ord used (inter (nbr g last) unused)) []
          else Ret []
      end
  end.

(** hamiltonian_paths.py:10-45, [hamiltonian_paths_con], and 48-82, [hamiltonian_paths]. *)
Definition ham_paths (g : graph) (ord : list Z -> list Z -> list Z) (con : bool) : outcome (list (list Z)) :=
  foldM (fun l v => do m <- hextend g ord con (length g) [v] v (discard (dkeys g) v); Ret (l ++ m)) (ord [] (dkeys g)) [].

(** hamiltonian_paths.py:92-99, [extend]. *)
Fixpoint nextend (g : graph) (ord : list Z -> list Z) (fuel : nat) (last : Z) (left : list Z) : outcome Z :=
  match fuel with
  | O => Diverge
  | S f =>
      match left with
      | [] => Ret 1
      | _ => foldM (fun total u => do x <- nextend g ord f u (discard left u); Ret (total + x)) (ord (inter (nbr g last) left)) 0
      end
  end.

(** hamiltonian_paths.py:85-105, [number_of_hamiltonian_paths]. *)
Definition number_of_hamiltonian_paths (g : graph) (ord : list Z -> list Z) : outcome Z :=
  foldM (fun ss v => do x <- nextend g ord (length g) v (discard (dkeys g) v); Ret (ss + x)) (ord (dkeys g)) 0.

(** hamiltonian_paths.py:193-205: the traversal of the remaining vertices.  The inner while loop
    adds the bits of [unvisited_neighbors] to [stack] one by one, here all at once. *)
Fixpoint bcon_loop (nb : list (Z * Z)) (remaining : Z) (fuel : nat) (stack visited : Z) : outcome Z :=
  if stack =? 0 then Ret visited
  else match fuel with
       | O => Diverge
       | S f =>
           let u := Z.land stack (- stack) in
           let stack := stack - u in
           let visited := Z.lor visited u in
           do nu <- dgetM nb u;
           bcon_loop nb remaining f (Z.lor stack (Z.land (Z.land nu remaining) (Z.lnot visited))) visited
       end.

(** hamiltonian_paths.py:141-144 and 216-219, the loop over the candidates. *)
Fixpoint cand_loop (n : Z) (remaining : Z) (rec : Z -> list (Z * Z) -> outcome (Z * list (Z * Z))) (fuel : nat) (candidates total : Z) (cache : list (Z * Z))
    : outcome (Z * list (Z * Z)) :=
  if candidates =? 0 then Ret (total, cache)
  else match fuel with
       | O => Diverge
       | S f =>
           let u := Z.land candidates (- candidates) in
           do '(x, cache) <- rec (Z.shiftl u n + (remaining - u)) cache;
           cand_loop n remaining rec f (candidates - u) (total + x) cache
       end.

(** hamiltonian_paths.py:130-148 ([con] = false) and 179-223 ([con] = true), [extend]; [nb] is the
    dictionary [neighbors], [k] the number of vertices and n the same number.  [fuel] exceeds the number of remaining vertices. *)
Fixpoint bextend (nb : list (Z * Z)) (con : bool) (k fuel : nat) (bits : Z) (cache : list (Z * Z)) : outcome (Z * list (Z * Z)) :=
  let n := Z.of_nat k in
  match dget cache bits with
  | Some v => Ret (v, cache)
  | None =>
      match fuel with
      | O => Diverge
      | S f =>
          let remaining := bits mod 2 ^ n in
          if remaining =? 0 then Ret (1, cache)
          else
            do c <- if con then do visited <- bcon_loop nb remaining k (Z.land remaining (- remaining)) 0; Ret (visited =? remaining) else Ret true;
            if c then
              let last := Z.shiftr bits n in
              do nl <- dgetM nb last;
              do '(total, cache) <- cand_loop n remaining (bextend nb con k f) k (Z.land remaining nl) 0 cache;
              let cache := dset cache (Z.shiftl last n + remaining) total in
              do v <- dgetM cache bits;
              Ret (v, cache)
            else Ret (0, cache)
      end
  end.

(** hamiltonian_paths.py:108-153, [number_of_hamiltonian_paths_bits], and 156-228,
    [number_of_hamiltonian_paths_bits_con]; [vs] is the shuffled list of the vertices.  The dictionary
    [neighbors] is built as in cliques.py:104-109. *)
Definition ham_bits (g : graph) (con : bool) (vs : list Z) : outcome Z :=
  do nb <- bit_neighbors g vs;
  let n := Z.of_nat (length vs) in
  do '(count, _) <- foldM (fun '(count, cache) i =>
      do '(x, cache) <- bextend nb con (length vs) (length vs) (2 ^ (n + i) + (2 ^ n - 1 - 2 ^ i)) cache;
      Ret (count + x, cache)) (zrange 0 n) (0, []);
  Ret count.

(** hamiltonian_paths.py:231-249, [walks]: the dictionary [num_walks].  The sums are formed at once, not
    by repeated +=. *)
Fixpoint walk_rounds (g : graph) (allowed : list Z) (k : nat) (num_walks : list (Z * Z)) : list (Z * Z) :=
  match k with
  | O => num_walks
  | S k' => walk_rounds g allowed k'
      (map (fun u => (u, zsum (map (fun v => match dget num_walks v with Some x => x | None => 0 end) (inter (nbr g u) allowed)))) allowed)
  end.
Definition walks (g : graph) (a n : Z) (allowed : list Z) : list (Z * Z) :=
  walk_rounds g allowed (Z.to_nat (n - 1)) (map (fun u => (u, if mem u (inter (nbr g a) allowed) then 1 else 0)) allowed).

(** hamiltonian_paths.py:265-268 and 292-295: what the set [allowed] contributes. *)
Definition walk_term (g : graph) (n : Z) (allowed : list Z) : Z :=
  zsum (map (fun a => let num_walks := walks g a (n - 1) allowed in
     zsum (map (fun u => (-1) ^ (n - Z.of_nat (length allowed)) * match dget num_walks u with Some x => x | None => 0 end) allowed)) allowed).

(** itertools.combinations(l, s) *)
Fixpoint combinations_of (s : nat) (l : list Z) : list (list Z) :=
  match s, l with
  | O, _ => [[]]
  | S _, [] => []
  | S s', x :: l' => map (cons x) (combinations_of s' l') ++ combinations_of s l'
  end.

(** hamiltonian_paths.py:252-269, [number_of_hamiltonian_paths5]; [vs] lists the vertices in the order of the set. *)
Definition ham5 (g : graph) (vs : list Z) : Z :=
  zsum (map (fun s => zsum (map (walk_term g (Z.of_nat (length vs))) (combinations_of s vs))) (seq 0 (S (length vs)))).

(** hamiltonian_paths.py:282-288, the generator [extend]; [rest] is vertices[idx:]. *)
Fixpoint cextend (g : graph) (ord : list Z -> list Z) (fuel : nat) (partial rest : list Z) : outcome (list (list Z)) :=
  match fuel with
  | O => Diverge
  | S f =>
      do c <- is_connected2 g ord (diff (dkeys g) partial);
      if c then
        do l <- (fix loop (rest : list Z) : outcome (list (list Z)) :=
                   match rest with
                   | [] => Ret []
                   | v :: rest' => do l <- cextend g ord f (partial ++ [v]) rest'; do m <- loop rest'; Ret (l ++ m)
                   end) rest;
        Ret (partial :: l)
      else Ret []
  end.

(** hamiltonian_paths.py:272-297, [number_of_hamiltonian_paths5_con]. *)
Definition ham5_con (g : graph) (ord : list Z -> list Z) : outcome Z :=
  do l <- cextend g ord (S (length g)) [] (vertices g);
  Ret (zsum (map (walk_term g (Z.of_nat (length g))) l)).
