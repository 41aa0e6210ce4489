(** * Model of rosemary/number_theory/primes/primality.py *)
From Coq Require Import ZArith List Bool Zpow_facts.
From Verif Require Import Base Py Core_Model PrimeList_Data TrialDiv_Model.
Import ListNotations.
Open Scope Z_scope.

(** Python's built-in three-argument [pow] for a nonnegative exponent. *)
Definition pow3 (a e n : Z) : outcome Z :=
  if n =? 0 then Raise ValueError else Ret (Zpow_mod a e n).

(** primality.py:98-100; state [(s, t)]. *)
Definition split2_step (st : Z * Z) : (Z * Z) + outcome (Z * Z) :=
  let '(s, t) := st in
  if t mod 2 =? 0 then inl (s + 1, t / 2) else inr (Ret (s, t)).

(** primality.py:106-110; [k] rounds remain. *)
Fixpoint mr_loop (n : Z) (k : nat) (b : Z) : bool :=
  match k with
  | O => false
  | S k' => let b := (b * b) mod n in
            if b =? n - 1 then true else mr_loop n k' b
  end.

(** primality.py:72-110, with the base [a] given (or drawn by randint). *)
Definition miller_rabin (n a : Z) : outcome bool :=
  do '(s, t) <- run split2_step (bits (n - 1)) (0, n - 1);
  do b <- pow3 a t n;
  if (b =? 1) || (b =? n - 1) then Ret true
  else Ret (mr_loop n (Z.to_nat (s - 1)) b).

(** [all(f(x) for x in xs)] with short circuit. *)
Fixpoint allM {A} (f : A -> outcome bool) (xs : list A) : outcome bool :=
  match xs with
  | [] => Ret true
  | x :: xs' => do b <- f x; if b then allM f xs' else Ret false
  end.

(** primality.py:161-183. *)
Definition is_probable_prime (n : Z) : outcome bool :=
  allM (miller_rabin n) (zrange 2 (Z.min (n - 1) 20)).

(** primality.py:186-218. *)
Definition is_prime (n : Z) : outcome bool :=
  if n <? 2 then Ret false
  else if n <=? last PRIME_LIST 0 then
    do v <- pyget PRIME_LIST (Z.of_nat (bisect_left PRIME_LIST n));
    Ret (v =? n)
  else
    do b <- is_probable_prime n;
    if negb b then Ret false
    else do d <- trial_division n None; Ret (d =? n).

(** primality.py:244-246 (and 267-269 with the other test). *)
Definition next_step (test : Z -> outcome bool) (n : Z) : Z + outcome Z :=
  match test n with
  | Ret true => inr (Ret n)
  | Ret false => inl (n + 2)
  | Raise e => inr (Raise e)
  | Diverge => inr Diverge
  end.

(** Enough rounds to reach a prime (Euclid: there is one below [n! + 1]). *)
Definition next_fuel (n : Z) : nat := Z.to_nat (Z.abs n * (Z.log2 (Z.abs n) + 1) + 3).

(** primality.py:226-246. *)
Definition next_prime (n : Z) : outcome Z :=
  if n =? 1 then Ret 2
  else
    let m := n + 1 in
    let m := if m mod 2 =? 0 then m + 1 else m in
    run (next_step is_prime) (next_fuel m) m.

(** primality.py:249-269. *)
Definition next_probable_prime (n : Z) : outcome Z :=
  if n =? 1 then Ret 2
  else
    let m := n + 1 in
    let m := if m mod 2 =? 0 then m + 1 else m in
    run (next_step is_probable_prime) (next_fuel m) m.

(** primality.py:272-279; [draws] is the sequence of values returned by
    [randint(a, b)]; [None] when the (finite part of the) sequence holds no prime. *)
Fixpoint random_prime (draws : list Z) : outcome (option Z) :=
  match draws with
  | [] => Ret None
  | n :: rest => do b <- is_prime n; if b then Ret (Some n) else random_prime rest
  end.

(** primality.py:144-153. *)
Definition lucas_lehmer (p : Z) : outcome bool :=
  let mp := 2 ^ p - 1 in
  do v <- foldM (fun v _ => pymod (v * v - 2) mp) (zrange 1 (p - 1)) 4;
  Ret (v =? 0).
