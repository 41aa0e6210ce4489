(** * Model of [korman] and [exact_coloring] in rosemary/graphs/algorithms/coloring.py *)
From Coq Require Import ZArith List Bool.
From Verif Require Import Base Py Lists Dict Graph_Model Trav_Model Color_Model MaxCliq_Model.
Import ListNotations.
Open Scope Z_scope.

(** coloring.py:544-569: the local variables of the main loop.  [k_s] and [k_sc] are [s] and [s_color],
    unbound until they are first assigned; the set [uncolored] is a list without repetitions. *)
Record kst := KS { k_idx : Z; k_next : bool; k_s : option Z; k_sc : option Z; k_color : list (Z * Z);
                   k_order : list (Z * Z); k_unc : list Z; k_best : Z; k_found : option (list (Z * Z)) }.

(** [max] of a list; a ValueError if it is empty. *)
Definition py_max (l : list Z) : outcome Z :=
  match l with [] => Raise ValueError | x :: xs => Ret (fold_left Z.max xs x) end.

(** [set.add]. *)
Definition set_add (l : list Z) (x : Z) : list Z := if mem x l then l else l ++ [x].

(** coloring.py:571 and 586: the colours of the neighbours of u. *)
Definition around (g : graph) (color : list (Z * Z)) (u : Z) : outcome (list Z) :=
  do a <- g_adj g u; mapM (dgetM color) (dkeys a).

(** coloring.py:570-581, one round: [max_adj], [max_deg] and [s]. *)
Definition choose_step (g : graph) (color : list (Z * Z)) (st : Z * Z * option Z) (u : Z) : outcome (Z * Z * option Z) :=
  let '(max_adj, max_deg, s) := st in
  do cs <- around g color u;
  do a <- g_adj g u;
  let num_adjacent := Z.of_nat (length (nodup Z.eq_dec cs)) in
  let degree := Z.of_nat (length (dkeys a)) in
  if num_adjacent =? max_adj then
    if max_deg <? degree then Ret (max_adj, degree, Some u) else Ret st
  else if max_adj <? num_adjacent then Ret (num_adjacent, degree, Some u)
  else Ret st.

Definition choose (g : graph) (color : list (Z * Z)) (unc : list Z) (s : option Z) : outcome (option Z) :=
  do '(_, _, s') <- foldM (choose_step g color) unc (0, 0, s); Ret s'.

(** A local variable that may be unbound. *)
Definition bound {A} (x : option A) : outcome A := match x with Some y => Ret y | None => Raise UnboundLocalError end.

(** coloring.py:599-601: the first position with a colour that is not less than [best]. *)
Fixpoint first_at (fuel : nat) (color order : list (Z * Z)) (best idx : Z) : outcome Z :=
  match fuel with
  | O => Diverge
  | S f => do u <- dgetM order idx; do c <- dgetM color u;
           if c <? best then first_at f color order best (idx + 1) else Ret idx
  end.

(** coloring.py:603-605, one round. *)
Definition reset (order : list (Z * Z)) (st : list (Z * Z) * list Z) (i : Z) : outcome (list (Z * Z) * list Z) :=
  do u <- dgetM order i; Ret (dset (fst st) u 0, set_add (snd st) u).

(** coloring.py:586-616: a round of the main loop for the vertex s. *)
Definition try_colour (g : graph) (s : Z) (st : kst) : outcome kst :=
  let vs := vertices g in
  let n := Z.of_nat (length vs) in
  let '(KS idx _ _ sc color order unc best found) := st in
  do adj <- around g color s;
  do c0 <- dgetM color s;
  let sc' := match find (fun i => negb (mem i adj)) (zrange (c0 + 1) (n + 1)) with Some i => Some i | None => sc end in
  do c <- bound sc';
  do ok <- (if c <? best then
              do l <- mapM (fun i => do u <- dgetM order i; do d <- dgetM color u; Ret (d + 1)) (zrange 0 idx);
              do m <- py_max l; Ret (c <=? m)
            else Ret false);
  if ok : bool then
    let color1 := dset color s c in
    let unc1 := without unc s in
    if idx =? n - 1 then
      do l <- mapM (dgetM color1) vs;
      do best1 <- py_max l;
      do j <- first_at (S (length vs)) color1 order best1 0;
      do '(color2, unc2) <- foldM (reset order) (zrange j n) (color1, unc1);
      do s' <- dgetM order (j - 1);
      Ret (KS (j - 1) false (Some s') sc' color2 order unc2 best1 (Some color1))
    else Ret (KS (idx + 1) true (Some s) sc' color1 order unc1 best found)
  else
    do s' <- dgetM order (idx - 1);
    Ret (KS (idx - 1) false (Some s') sc' (dset color s 0) order (set_add unc s) best found).

(** coloring.py:566-616: a round of the main loop.  [ord] is the order in which [uncolored] is iterated
    over, which may depend on everything. *)
Definition k_round (g : graph) (ord : kst -> list Z -> list Z) (st : kst) : outcome kst :=
  if k_next st then
    do so <- choose g (k_color st) (ord st (k_unc st)) (k_s st);
    do s <- bound so;
    try_colour g s (KS (k_idx st) false (Some s) (k_sc st) (k_color st) (dset (k_order st) (k_idx st) s) (k_unc st) (k_best st) (k_found st))
  else
    do s <- bound (k_s st); try_colour g s st.

(** coloring.py:566: the main loop. *)
Definition k_loop (g : graph) (ord : kst -> list Z -> list Z) (clique_size : Z) (st : kst) : kst + outcome kst :=
  if k_idx st <? clique_size then inr (Ret st)
  else match k_round g ord st with Ret st' => inl st' | Raise e => inr (Raise e) | Diverge => inr Diverge end.

(** coloring.py:557-560, one round: the colours, the order, and the uncoloured vertices. *)
Definition k_init (st : Z * list (Z * Z) * list (Z * Z) * list Z) (u : Z) : Z * list (Z * Z) * list (Z * Z) * list Z :=
  let '(i, color, order, unc) := st in (i + 1, dset color u (i + 1), dset order i u, without unc u).

(** coloring.py:629-630, one round. *)
Definition put_class (L : list (list Z)) (vc : Z * Z) : outcome (list (list Z)) :=
  do l <- pyget L (snd vc - 1); pyset L (snd vc - 1) (l ++ [fst vc]).

(** coloring.py:618-632. *)
Definition k_result (classes : bool) (best : Z) (found : option (list (Z * Z))) (initial : list (Z * Z)) : outcome (Z * colouring) :=
  let bc := match found with Some d => d | None => map (fun vc => (fst vc, snd vc + 1)) initial end in
  if classes then do L <- foldM put_class bc (repeat [] (Z.to_nat best)); Ret (best, Classes L)
  else Ret (best, ColorMap bc).

(** coloring.py:486-632, [korman], with at most 2 ^ [fuel] rounds of the main loop.  [ord0] is the order of the
    vertex set in [dsatur]; [maximum_clique] (cliques.py:583-618) is [ostergard]. *)
Definition korman_upto (fuel : nat) (g : graph) (ord0 : list Z -> list Z) (ord : kst -> list Z -> list Z) (classes : bool) : outcome (Z * colouring) :=
  let vs := vertices g in
  do '(best, cl) <- dsatur g ord0 false;
  do initial <- (match cl with ColorMap cm => Ret cm | Classes _ => Raise TypeError end);
  do '(size, clique) <- ostergard g;
  let '(_, color, order, unc) := fold_left k_init clique (0, map (fun u => (u, 0)) vs, [], vs) in
  if size =? Z.of_nat (length vs) then k_result classes best None initial
  else do st <- run (k_loop g ord size) fuel (KS size true None None color order unc best None);
       k_result classes (k_best st) (k_found st) initial.

(** A number of rounds that is enough if the loop ends at all (theorem C84). *)
Definition korman (g : graph) (ord0 : list Z -> list Z) (ord : kst -> list Z -> list Z) (classes : bool) : outcome (Z * colouring) :=
  let n := Z.of_nat (length (vertices g)) in
  korman_upto (bits ((n + 2) ^ n)) g ord0 ord classes.

(** coloring.py:635-699, [exact_coloring]. *)
Definition exact_coloring := korman.
