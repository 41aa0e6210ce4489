(** * Model of rosemary/graphs/algorithms/coloring.py *)
From Coq Require Import ZArith List Bool.
From Verif Require Import Base Py Lists Dict Graph_Model Trav_Model.
Import ListNotations.
Open Scope Z_scope.

(** The two forms of the second component of the results. *)
Inductive colouring := Classes (L : list (list Z)) | ColorMap (cm : list (Z * Z)).

(** coloring.py:171-174 (and 68-74, 392, 432): the colours of the coloured vertices among [l];
    a set in the program, of which only membership and size are used. *)
Definition colours_of (cm : list (Z * Z)) (l : list Z) : list Z :=
  flat_map (fun u => match dget cm u with Some c => [c] | None => [] end) l.

(** coloring.py:176-181 and 84-89: the first colour of range(num_colors + 1) that is free. *)
Definition give_colour (cm : list (Z * Z)) (k v : Z) (adj : list Z) : list (Z * Z) * Z :=
  match find (fun c => negb (mem c adj)) (zrange 0 (k + 1)) with
  | Some c => (dset cm v c, if c =? k then k + 1 else k)
  | None => (cm, k)
  end.

(** coloring.py:169-181, one round. *)
Definition greedy_step (g : graph) (st : list (Z * Z) * Z) (v : Z) : outcome (list (Z * Z) * Z) :=
  do a <- g_adj g v; Ret (give_colour (fst st) (snd st) v (colours_of (fst st) (dkeys a))).

(** coloring.py:164-181: the colour map and the number of colours. *)
Definition greedy_map (g : graph) (vertices : list Z) : outcome (list (Z * Z) * Z) :=
  match vertices with
  | [] => Raise IndexError
  | v :: rest => foldM (greedy_step g) rest ([(v, 0)], 1)
  end.

(** coloring.py:184-186 and 94-96 ([lo] = 0), 477-481 ([lo] = 1): class c holds the vertices of
    colour lo + c, in the order of the dictionary. *)
Definition color_classes (lo k : Z) (cm : list (Z * Z)) : list (list Z) :=
  map (fun c => map fst (filter (fun uc => snd uc =? c) cm)) (zrange lo (lo + k)).

(** coloring.py:101-199, [greedy_sequential] for given vertices and at most one pass. *)
Definition greedy_once (g : graph) (vertices : list Z) (passes : Z) (classes : bool) : outcome (Z * colouring) :=
  do '(cm, k) <- greedy_map g vertices;
  if classes && (passes =? 1) then Ret (k, Classes (color_classes 0 k cm)) else Ret (k, ColorMap cm).

(** coloring.py:101-199, [greedy_sequential]; the recursive call has passes = 1.  The default
    vertices are those in order of decreasing degree (161-162). *)
Definition greedy_sequential (g : graph) (vertices : option (list Z)) (passes : Z) (classes : bool) : outcome (Z * colouring) :=
  let vs := match vertices with Some l => l | None => rev (vertices_by_degree g) end in
  if passes <=? 1 then greedy_once g vs passes classes
  else do '(cm, k) <- greedy_map g vs;
       greedy_once g (concat (rev (color_classes 0 k cm))) 1 classes.

(** coloring.py:67-76 (and 418-429): the triple of the vertex u. *)
Definition saturation (g : graph) (cm : list (Z * Z)) (u : Z) : outcome (Z * Z * Z) :=
  do a <- g_adj g u;
  Ret (Z.of_nat (length (nodup Z.eq_dec (colours_of cm (dkeys a)))),
       Z.of_nat (length (filter (fun v => negb (dmem cm v)) (dkeys a))), u).

(** The lexicographic order of the triples. *)
Definition triple_lt (x y : Z * Z * Z) : bool :=
  let '(a, b, c) := x in let '(a', b', c') := y in
  (a <? a') || ((a =? a') && ((b <? b') || ((b =? b') && (c <? c')))).

(** coloring.py:65-78 (and 418-431): [max] of the triples of the uncoloured vertices; ValueError
    for none.  The triples are distinct, so that the order of the set does not matter. *)
Definition most_saturated (g : graph) (cm : list (Z * Z)) (unc : list Z) : outcome Z :=
  match unc with
  | [] => Raise ValueError
  | u :: l => do t <- saturation g cm u;
              do m <- foldM (fun m v => do t <- saturation g cm v; Ret (if triple_lt m t then t else m)) l t;
              Ret (snd m)
  end.

(** coloring.py:79: [uncolored.remove(u)]. *)
Definition without (l : list Z) (u : Z) : list Z := filter (fun v => negb (v =? u)) l.

(** coloring.py:61-89, the loop of [dsatur]; [fuel] is the number of uncoloured vertices. *)
Fixpoint dsatur_loop (g : graph) (fuel : nat) (unc : list Z) (cm : list (Z * Z)) (k : Z) : outcome (list (Z * Z) * Z) :=
  match unc with
  | [] => Ret (cm, k)
  | _ => match fuel with
         | O => Diverge
         | S f => do u <- most_saturated g cm unc;
                  do a <- g_adj g u;
                  let st := give_colour cm k u (colours_of cm (dkeys a)) in
                  dsatur_loop g f (without unc u) (fst st) (snd st)
         end
  end.

(** coloring.py:10-98, [dsatur]; [ord] is the iteration order of the vertex set in
    [maximum_degree_vertex] (ties of the first vertex). *)
Definition dsatur (g : graph) (ord : list Z -> list Z) (classes : bool) : outcome (Z * colouring) :=
  do u <- maximum_degree_vertex ord g;
  do '(cm, k) <- dsatur_loop g (length (dkeys g)) (without (vertices g) u) [(u, 0)] 1;
  Ret (k, if classes then Classes (color_classes 0 k cm) else ColorMap cm).

(** coloring.py:389-453, the inner function [color]: the new [best_number] and [best].
    [color_map] and [uncolored] are restored after each call, and are arguments here. *)
Fixpoint bnb_color (g : graph) (fuel : nat) (unc : list Z) (cm : list (Z * Z)) (k bn : Z) (best : Z * list (Z * Z)) : outcome (Z * (Z * list (Z * Z))) :=
  match fuel with
  | O => Diverge
  | S f =>
    match unc with
    | [u] =>
      do a <- g_adj g u;
      match find (fun j => negb (mem j (colours_of cm (dkeys a)))) (zrange 1 (k + 1)) with
      | Some j => Ret (k, if k <? fst best then (k, dset cm u j) else best)
      | None => if k + 1 <? bn then Ret (k + 1, if k + 1 <? fst best then (k + 1, dset cm u (k + 1)) else best)
                else Ret (bn, best)
      end
    | _ =>
      do u <- most_saturated g cm unc;
      do a <- g_adj g u;
      let adj := colours_of cm (dkeys a) in
      if Z.of_nat (length (nodup Z.eq_dec adj)) =? bn - 1 then Ret (bn, best)
      else
        do '(bn, best) <- foldM (fun st j => if mem j adj then Ret st
                                             else bnb_color g f (without unc u) (dset cm u j) k (fst st) (snd st))
                            (zrange 1 (k + 1)) (bn, best);
        if k <? bn - 1 then bnb_color g f (without unc u) (dset cm u (k + 1)) (k + 1) bn best
        else Ret (bn, best)
    end
  end.

(** coloring.py:344-483, [branch_and_bound]. *)
Definition branch_and_bound (g : graph) (classes : bool) : outcome (Z * colouring) :=
  let n := Z.of_nat (length (vertices g)) in
  do '(_, (k, cm)) <- bnb_color g (S (length (vertices g))) (vertices g) [] 0 n (n, []);
  Ret (k, if classes then Classes (color_classes 1 k cm) else ColorMap cm).
