(** * Model of the maximum cliques of rosemary/graphs/algorithms/cliques.py *)
From Coq Require Import ZArith List Bool.
From Verif Require Import Base Py Dict Lists Graph_Model Trav_Model Cliq_Model Color_Model.
Import ListNotations.
Open Scope Z_scope.

(** [max_clique] (cliques.py:272, 425, 672) and [found[0]] (470). *)
Notation mstate := (Z * list Z * bool)%type.
Definition best_size {A} (st : Z * A * bool) : Z := fst (fst st).
Definition was_found {A} (st : Z * A * bool) : bool := snd st.

(** cliques.py:449-450 and 695-696: the cut by [largest], which [pardalos] does not have.
    [largest[i]] is kept under the vertex [vertices[i]]; entries not yet set are 0. *)
Definition lim_cut (largest : option (list (Z * Z))) (u size m : Z) : bool :=
  match largest with
  | None => false
  | Some d => size + match dget d u with Some x => x | None => 0 end <=? m
  end.

(** cliques.py:282-302 ([pardalos]: all weights 1, no [largest], [stop] = false),
    431-459 ([ostergard]: all weights 1, [stop] = true) and 674-703 ([maximum_weight_clique]:
    [stop] = false), the function [backtrack].  The inner [loop] runs through [vertices] from
    the index [last_i]; the tests of the while loop are repeated for the vertices that are
    skipped, which changes nothing.  [fuel] exceeds the number of candidates. *)
Fixpoint msearch (g : graph) (wt : Z -> Z) (largest : option (list (Z * Z))) (stop : bool) (vertices : list Z)
    (fuel : nat) (candidates : list Z) (size : Z) (used : list Z) (st : mstate) : mstate :=
  match fuel with
  | O => st
  | S f =>
      match candidates with
      | [] => if best_size st <? size then (size, used, true) else st
      | _ =>
          (fix loop (rest : list Z) (candidates : list Z) (st : mstate) : mstate :=
             match rest with
             | [] => st
             | u :: rest' =>
                 match candidates with
                 | [] => st
                 | _ =>
                     if size + fold_right (fun v t => wt v + t) 0 candidates <=? best_size st then st
                     else if mem u candidates then
                       if lim_cut largest u size (best_size st) then st
                       else
                         let candidates := discard candidates u in
                         let st := msearch g wt largest stop vertices f (inter candidates (nbr g u)) (size + wt u) (used ++ [u]) st in
                         if stop && was_found st then st else loop rest' candidates st
                     else loop rest' candidates st
                 end
             end) vertices candidates st
      end
  end.

Definition one (v : Z) : Z := 1.

(** cliques.py:242-305, [pardalos]; [ord] gives the orders of the vertex sets in
    [vertices(order='induced')]. *)
Definition pardalos (g : graph) (ord : nat -> list Z -> list Z) : outcome (Z * list Z) :=
  do vs <- vertices_induced ord g;
  Ret (fst (msearch g one None false vs (S (length vs)) vs 0 [] (0, [], false))).

(** cliques.py:461-475 and 705-716: the rounds for vertices[i:] = u :: rest, those for later
    indices first; [vertices] is the whole list. *)
Fixpoint stages (g : graph) (wt : Z -> Z) (stop : bool) (vertices suffix : list Z) : mstate * list (Z * Z) :=
  match suffix with
  | [] => ((0, [], false), [])
  | u :: rest =>
      let '(st, largest) := stages g wt stop vertices rest in
      let st := msearch g wt (Some largest) stop vertices (S (length vertices)) (inter suffix (nbr g u)) (wt u) [u] (fst st, false) in
      (st, (u, best_size st) :: largest)
  end.

(** cliques.py:416-423: by colour class, and by degree in each class; then reversed. *)
Definition ostergard_order (g : graph) : outcome (list Z) :=
  do '(_, c) <- greedy_sequential g None 1 true;
  match c with
  | Classes L => Ret (rev (flat_map (sort_by (fun v => - degree0 g v)) L))
  | ColorMap _ => Raise TypeError
  end.

(** cliques.py:384-477, [ostergard]. *)
Definition ostergard (g : graph) : outcome (Z * list Z) :=
  do vs <- ostergard_order g;
  Ret (fst (fst (stages g one true vs vs))).

(** cliques.py:626-718, [maximum_weight_clique].  A vertex without weight gives a KeyError;
    [ord] is the order of the vertex set that is sorted. *)
Definition maximum_weight_clique (g : graph) (ord : list Z -> list Z) (weight_map : option (list (Z * Z))) : outcome (Z * list Z) :=
  let wm := match weight_map with Some d => d | None => map (fun u => (u, u)) (dkeys g) end in
  let wt := fun v => match dget wm v with Some w => w | None => 0 end in
  if forallb (dmem wm) (dkeys g) then
    let vs := sort_by (fun u => fold_right (fun v t => wt v + t) 0 (nbr g u)) (ord (dkeys g)) in
    Ret (fst (fst (stages g wt false vs vs)))
  else Raise KeyError.

(** ** Bit masks *)

(** [bin(m).count('1')] *)
Fixpoint ones (p : positive) : Z := match p with xH => 1 | xO q => ones q | xI q => 1 + ones q end.
Definition popcount (m : Z) : Z := match m with Zpos p => ones p | _ => 0 end.

(** cliques.py:359-371 and 538-558, [backtrack] on masks; the state holds the mask of the best
    clique.  [n] is the number of vertices, which bounds the rounds of the loop. *)
Fixpoint bsearch (nb : list (Z * Z)) (largest : option (list (Z * Z))) (stop : bool) (n fuel : nat)
    (used candidates size : Z) (st : Z * Z * bool) : outcome (Z * Z * bool) :=
  match fuel with
  | O => Diverge
  | S f =>
      if candidates =? 0 then Ret (if best_size st <? size then (size, used, true) else st)
      else
        (fix loop (k : nat) (candidates : Z) (st : Z * Z * bool) : outcome (Z * Z * bool) :=
           match k with
           | O => Diverge
           | S k' =>
               if candidates =? 0 then Ret st
               else if size + popcount candidates <=? best_size st then Ret st
               else
                 let u := Z.land candidates (- candidates) in
                 if lim_cut largest u size (best_size st) then Ret st
                 else
                   let candidates := Z.land candidates (candidates - 1) in
                   do nu <- dgetM nb u;
                   do st <- bsearch nb largest stop n f (Z.lor used u) (Z.land candidates nu) (size + 1) st;
                   if stop && was_found st then Ret st else loop k' candidates st
           end) (S n) candidates st
  end.

(** cliques.py:375-379 and 574-578. *)
Fixpoint pick_bits (vs : list Z) (i bits : Z) : list Z :=
  match vs with
  | [] => []
  | v :: vs' => if Z.land bits (Z.shiftl 1 i) =? 0 then pick_bits vs' (i + 1) bits else v :: pick_bits vs' (i + 1) bits
  end.

(** cliques.py:308-381, [pardalos_binary]. *)
Definition pardalos_binary (g : graph) (ord : nat -> list Z -> list Z) : outcome (Z * list Z) :=
  do vs <- vertices_induced ord g;
  do nb <- bit_neighbors g vs;
  do st <- bsearch nb None false (length vs) (S (length vs)) 0 (2 ^ Z.of_nat (length vs) - 1) 0 (0, 0, false);
  Ret (best_size st, pick_bits vs 0 (snd (fst st))).

(** cliques.py:568-572: the rounds for the indices k - 1, ..., 0 ([k] counts down);
    S[i] is [(all >> i) << i]. *)
Fixpoint bstages (nb : list (Z * Z)) (n k : nat) (i all : Z) : outcome ((Z * Z * bool) * list (Z * Z)) :=
  match k with
  | O => Ret ((0, 0, false), [])
  | S k' =>
      do '(st, largest) <- bstages nb n k' (i + 1) all;
      let u := Z.shiftl 1 i in
      do nu <- dgetM nb u;
      do st <- bsearch nb (Some largest) true n (S n) u (Z.land (Z.shiftl (Z.shiftr all i) i) nu) 1 (fst st, false);
      Ret (st, (u, best_size st) :: largest)
  end.

(** cliques.py:480-580, [ostergard_binary]. *)
Definition ostergard_binary (g : graph) : outcome (Z * list Z) :=
  do vs <- ostergard_order g;
  do nb <- bit_neighbors g vs;
  do '(st, _) <- bstages nb (length vs) (length vs) 0 (2 ^ Z.of_nat (length vs) - 1);
  Ret (best_size st, pick_bits vs 0 (snd (fst st))).
