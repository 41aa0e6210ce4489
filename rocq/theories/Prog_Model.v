(** * Model of rosemary/number_theory/arithmetic_progressions.py *)
From Coq Require Import ZArith List Bool.
From Verif Require Import Base.
Import ListNotations.
Open Scope Z_scope.

(** arithmetic_progressions.py:32-41, the two pointers around [j]; the result is the
    triple of indices, or [None] when the pointers leave the list. *)
Definition ap_step (A : list Z) (j : Z) (s : Z * Z) : (Z * Z) + outcome (option (Z * Z * Z)) :=
  let '(i, k) := s in
  if (0 <=? i) && (k <? Z.of_nat (length A)) then
    match (do x <- pyget A i; do y <- pyget A k; do z <- pyget A j; Ret (x + y, 2 * z)) with
    | Ret (u, v) => if u <? v then inl (i, k + 1) else if v <? u then inl (i - 1, k) else inr (Ret (Some (i, j, k)))
    | Raise e => inr (Raise e)
    | Diverge => inr Diverge
    end
  else inr (Ret None).

(** arithmetic_progressions.py:29-42, the loop over [j], which ends at the first hit. *)
Fixpoint ap_scan (A : list Z) (js : list Z) : outcome (option (Z * Z * Z)) :=
  match js with
  | [] => Ret None
  | j :: js =>
      do r <- run (ap_step A j) (bits (Z.of_nat (length A) + 1)) (j - 1, j + 1);
      match r with Some t => Ret (Some t) | None => ap_scan A js end
  end.

(** arithmetic_progressions.py:1-42 with [indices=True]; [None] stands for [False]. *)
Definition three_term_indices (A : list Z) : outcome (option (Z * Z * Z)) :=
  ap_scan A (zrange 1 (Z.of_nat (length A))).

(** arithmetic_progressions.py:1-42 with the default [indices=False]. *)
Definition has_three_term_ap (A : list Z) : outcome (option (Z * Z * Z)) :=
  do r <- three_term_indices A;
  match r with
  | None => Ret None
  | Some (i, j, k) => do x <- pyget A i; do y <- pyget A j; do z <- pyget A k; Ret (Some (x, y, z))
  end.

(** Dictionaries keyed by pairs, in insertion order. *)
Definition pair_eqb (p q : Z * Z) : bool := (fst p =? fst q) && (snd p =? snd q).
Fixpoint pget (d : list ((Z * Z) * Z)) (k : Z * Z) : option Z :=
  match d with [] => None | (k', v) :: d => if pair_eqb k' k then Some v else pget d k end.
Fixpoint pset (d : list ((Z * Z) * Z)) (k : Z * Z) (v : Z) : list ((Z * Z) * Z) :=
  match d with
  | [] => [(k, v)]
  | (k', v') :: d => if pair_eqb k' k then (k', v) :: d else (k', v') :: pset d k v
  end.
(** [d.get(k, x)]. *)
Definition pgetd (d : list ((Z * Z) * Z)) (k : Z * Z) (x : Z) : Z := match pget d k with Some v => v | None => x end.

(** arithmetic_progressions.py:80-90; state [(i, k, L, longest)]. *)
Definition la_step (A : list Z) (j : Z) (s : Z * Z * list ((Z * Z) * Z) * Z) : (Z * Z * list ((Z * Z) * Z) * Z) + outcome (Z * list ((Z * Z) * Z) * Z) :=
  let '(i, k, L, longest) := s in
  if (0 <=? i) && (k <=? Z.of_nat (length A) - 1) then
    match (do x <- pyget A i; do y <- pyget A k; do z <- pyget A j; Ret (x + y, 2 * z)) with
    | Ret (u, v) =>
        if u <? v then inl (i, k + 1, L, longest)
        else if v <? u then inl (i - 1, k, pset L (i, j) 2, longest)
        else let w := pgetd L (j, k) 2 + 1 in
             inl (i - 1, k + 1, pset L (i, j) w, Z.max longest w)
    | Raise e => inr (Raise e)
    | Diverge => inr Diverge
    end
  else inr (Ret (i, L, longest)).

(** arithmetic_progressions.py:78-93, the body of the loop over [j]. *)
Definition la_body (A : list Z) (s : list ((Z * Z) * Z) * Z) (j : Z) : outcome (list ((Z * Z) * Z) * Z) :=
  let '(L, longest) := s in
  do '(i, L, longest) <- run (la_step A j) (bits (Z.of_nat (length A) + 1)) (j - 1, j + 1, L, longest);
  Ret (fold_left (fun L i => pset L (i, j) 2) (rev (zrange 0 (i + 1))) L, longest).

(** Comparison of tuples and [list.sort]. *)
Fixpoint tuple_leb (p q : list Z) : bool :=
  match p, q with
  | [], _ => true
  | _ :: _, [] => false
  | x :: p, y :: q => (x <? y) || ((x =? y) && tuple_leb p q)
  end.
Fixpoint tuple_insert (x : list Z) (l : list (list Z)) : list (list Z) :=
  match l with [] => [x] | y :: l => if tuple_leb x y then x :: y :: l else y :: tuple_insert x l end.
Definition tuple_sort (l : list (list Z)) : list (list Z) := fold_right tuple_insert [] l.

(** arithmetic_progressions.py:45-102. *)
Definition longest_ap (A : list Z) : outcome (list (list Z)) :=
  let n := Z.of_nat (length A) in
  do '(L, longest) <- foldM (la_body A) (rev (zrange 1 (n - 1))) ([], 2);
  do progs <- foldM (fun progs e =>
    let '((i, j), v) := e in
    if v =? longest then
      do y <- pyget A j; do x <- pyget A i;
      let diff := y - x in
      Ret (progs ++ [map (fun k => x + diff * k) (zrange 0 longest)])
    else Ret progs) L [];
  Ret (tuple_sort progs).
