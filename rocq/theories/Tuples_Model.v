(** * Model of rosemary/combinatorics/generation/combinations.py and tuples.py *)
From Coq Require Import ZArith List Bool.
From Verif Require Import Base Gen.
Import ListNotations.
Open Scope Z_scope.

(** combinations.py:9-12; c has t + 3 entries, so the loop runs at most t + 2 times. *)
Fixpoint comb_loop (fuel : nat) (c : list Z) (j : Z) : outcome (list Z * Z) :=
  do a <- pyget c j; do b <- pyget c (j + 1);
  if a + 1 =? b then
    match fuel with
    | O => Diverge
    | S f => do c <- pyset c j (j - 1); comb_loop f c (j + 1)
    end
  else Ret (c, j).

(** combinations.py:9-15. *)
Definition comb_next (t : Z) (c : list Z) : outcome (option (list Z)) :=
  do '(c, j) <- comb_loop (length c) c 1;
  if j >? t then Ret None
  else do a <- pyget c j; do c <- pyset c j (a + 1); Ret (Some c).

(** combinations.py:5-8, for t >= 0: the value yielded is c[t], ..., c[1]. *)
Definition comb_start (n t : Z) : list Z := [0] ++ map (fun j => j - 1) (zrange 1 (t + 1)) ++ [n; 0].
Definition comb_visit (t : Z) (c : list Z) : list Z := rev (firstn (Z.to_nat t) (tl c)).
Definition combinations (n t : Z) (fuel : nat) : list (list Z) * gstatus :=
  gen (comb_visit t) (comb_next t) fuel (comb_start n t).

(** tuples.py:44-47. *)
Fixpoint tup_loop (fuel : nat) (M A : list Z) (j : Z) : outcome (list Z * Z) :=
  do a <- pyget A j; do m <- pyget M j;
  if a =? m - 1 then
    match fuel with
    | O => Diverge
    | S f => do A <- pyset A j 0; tup_loop f M A (j - 1)
    end
  else Ret (A, j).

(** tuples.py:44-51. *)
Definition tup_next (n : Z) (M A : list Z) : outcome (option (list Z)) :=
  do '(A, j) <- tup_loop (length A) M A n;
  if j =? 0 then Ret None
  else do a <- pyget A j; do A <- pyset A j (a + 1); Ret (Some A).

(** The argument M of [n_tuples]: a list, an integer, or neither. *)
Inductive radix := RList (M : list Z) | RInt (b : Z) | RNone.

(** tuples.py:32-40. *)
Definition tup_radices (n : Z) (M : radix) : list Z :=
  match M with
  | RList M => if Z.of_nat (length M) =? n then 2 :: M else M
  | RInt b => 2 :: map (fun _ => b) (zrange 0 n)
  | RNone => 2 :: map (fun _ => 2) (zrange 0 n)
  end.

(** tuples.py:1-51, [n_tuples]. *)
Definition n_tuples (n : Z) (M : radix) (fuel : nat) : list (list Z) * gstatus :=
  gen (@tl Z) (tup_next n (tup_radices n M)) fuel (map (fun _ => 0) (zrange 0 (n + 1))).
