(** * Model of rosemary/combinatorics/generation/permutations.py

    Elements are integers (any totally ordered type behaves alike).  A generator
    is a state, the value yielded in it, and the function computing the next
    state; see Gen.v. *)
From Coq Require Import ZArith List Bool.
From Verif Require Import Base Lists Gen.
Import ListNotations.
Open Scope Z_scope.

(** [e[i], e[j] = e[j], e[i]] *)
Definition swap (e : list Z) (i j : Z) : outcome (list Z) :=
  do a <- pyget e i; do b <- pyget e j;
  do e <- pyset e i b; pyset e j a.

(** permutations.py:236-241 (also 142-145, 331-336, 399-404, 427-432): reverse
    e[k..l].  The fuel of this and the following loops is the length of e. *)
Fixpoint rev_loop (fuel : nat) (e : list Z) (k l : Z) : outcome (list Z) :=
  if k <? l then
    match fuel with
    | O => Diverge
    | S f => do e <- swap e k l; rev_loop f e (k + 1) (l - 1)
    end
  else Ret e.

(** permutations.py:216-218 (also 311-313, 407-409). *)
Fixpoint find_j (fuel : nat) (e : list Z) (j : Z) : outcome Z :=
  if 0 <=? j then
    do a <- pyget e j; do b <- pyget e (j + 1);
    if a >=? b then match fuel with O => Diverge | S f => find_j f e (j - 1) end else Ret j
  else Ret j.

(** permutations.py:227-229 (also 322-324, 418-420). *)
Fixpoint find_l (fuel : nat) (e : list Z) (j l : Z) : outcome Z :=
  do a <- pyget e j; do b <- pyget e l;
  if a >=? b then match fuel with O => Diverge | S f => find_l f e j (l - 1) end else Ret l.

(** permutations.py:213-241, from the search for j starting at [j0] to the
    reversal; the result also says which j was found. *)
Definition knuth_step (e : list Z) (j0 : Z) : outcome (option (list Z * Z)) :=
  let n := Z.of_nat (length e) - 1 in
  do j <- find_j (length e) e j0;
  if j <? 0 then Ret None
  else do l <- find_l (length e) e j n;
       do e <- swap e j l;
       do e <- rev_loop (length e) e (j + 1) n;
       Ret (Some (e, j)).

(** permutations.py:148-241, [knuth_algorithm_l]. *)
Definition knuth_next (e : list Z) : outcome (option (list Z)) :=
  do r <- knuth_step e (Z.of_nat (length e) - 2);
  Ret (match r with Some (e, _) => Some e | None => None end).
Definition knuth_algorithm_l (elements : list Z) (fuel : nat) : list (list Z) * gstatus :=
  gen (fun e => e) knuth_next fuel (zsort elements).

(** permutations.py:249-336, [knuth_algorithm_l_variations].  The state is the
    arrangement and the length of the prefix yielded. *)
Definition variations_next (st : list Z * Z) : outcome (option (list Z * Z)) :=
  let '(e, j) := st in
  let n := Z.of_nat (length e) - 1 in
  if j <=? n then Ret (Some (e, j + 1))
  else do r <- knuth_step e (n - 1);
       Ret (match r with Some (e, j) => Some (e, j + 1) | None => None end).
Definition knuth_algorithm_l_variations (elements : list Z) (fuel : nat) : list (list Z) * gstatus :=
  gen (fun st => firstn (Z.to_nat (snd st)) (fst st)) variations_next fuel (zsort elements, 0).

(** permutations.py:392-394. *)
Fixpoint find_r (fuel : nat) (e : list Z) (r j : Z) : outcome Z :=
  do b <- pyget e j; do a <- pyget e r;
  if b <=? a then match fuel with O => Diverge | S f => find_r f e r (j + 1) end else Ret j.

(** permutations.py:339-432, [knuth_algorithm_l_rvariations], for r >= 0. *)
Definition rvariations_next (r : Z) (e : list Z) : outcome (option (list Z)) :=
  let n := Z.of_nat (length e) - 1 in
  let r := r - 1 in
  do a <- pyget e r; do b <- pyget e n;
  if a <? b then
    do j <- find_r (length e) e r (r + 1);
    do e <- swap e r j;
    Ret (Some e)
  else
    do e <- rev_loop (length e) e (r + 1) n;
    do s <- knuth_step e (r - 1);
    Ret (match s with Some (e, _) => Some e | None => None end).
Definition knuth_algorithm_l_rvariations (elements : list Z) (r : Z) (fuel : nat) : list (list Z) * gstatus :=
  gen (firstn (Z.to_nat r)) (rvariations_next r) fuel (zsort elements).

(** permutations.py:108-113: negative indices wrap around. *)
Fixpoint find_jp (fuel : nat) (e : list Z) (x y j : Z) : outcome (Z * Z * Z) :=
  if y >=? x then
    match fuel with
    | O => Diverge
    | S f => do y' <- pyget e (j - 1); find_jp f e y y' (j - 1)
    end
  else Ret (x, y, j).

(** permutations.py:127-129. *)
Fixpoint find_lp (fuel : nat) (e : list Z) (y l : Z) : outcome Z :=
  do b <- pyget e l;
  if y >=? b then match fuel with O => Diverge | S f => find_lp f e y (l - 1) end else Ret l.

(** permutations.py:81-145, one round of the main loop (three or more elements).
    The inner [while True] always breaks in its first round. *)
Definition phillips_next (e : list Z) : outcome (option (list Z)) :=
  let n := Z.of_nat (length e) - 1 in
  do y <- pyget e (n - 1); do z <- pyget e n;
  if y <? z then
    do e <- pyset e (n - 1) z; do e <- pyset e n y; Ret (Some e)
  else
    do x <- pyget e (n - 2);
    if x <? y then
      if x <? z then
        do e <- pyset e (n - 2) z; do e <- pyset e (n - 1) x; do e <- pyset e n y; Ret (Some e)
      else
        do e <- pyset e (n - 2) y; do e <- pyset e (n - 1) z; do e <- pyset e n x; Ret (Some e)
    else
      do y <- pyget e (n - 3);
      do '(x, y, j) <- find_jp (2 * length e + 1) e x y (n - 3);
      if j <? 0 then Ret None
      else
        do e <- (if y <? z then
                   do e <- pyset e j z; do e <- pyset e (j + 1) y; pyset e n x
                 else
                   do l <- find_lp (length e) e y (n - 1);
                   do el <- pyget e l;
                   do e <- pyset e j el; do e <- pyset e l y;
                   do w <- pyget e (j + 1);
                   do e <- pyset e n w; pyset e (j + 1) z);
        do e <- rev_loop (length e) e (j + 2) (n - 1);
        Ret (Some e).

(** permutations.py:6-145, [phillips]: the cases of one and two elements are
    treated separately; for no elements the main loop is entered. *)
Definition phillips (elements : list Z) (fuel : nat) : list (list Z) * gstatus :=
  match zsort elements with
  | [a] => match fuel with O => ([], GMore) | S _ => ([[a]], GEnded) end
  | [a; b] => match fuel with O => ([], GMore) | 1%nat => ([[a; b]], GMore)
              | S (S _) => ([[a; b]; [b; a]], GEnded) end
  | e => gen (fun e => e) phillips_next fuel e
  end.
