(** * Model of rosemary/number_theory/misc.py *)
From Coq Require Import ZArith List Bool QArith Qcanon.
From Verif Require Import Base PrimeList_Data.
Import ListNotations.
Open Scope Z_scope.

(** misc.py:9-72.  [rosemary.number_theory.factorization] is a package with an empty
    [__init__.py], so line 34 raises AttributeError and nothing after it is reached. *)
Definition largest_divisor (n b : Z) : outcome Z :=
  do r <- pymod n b;
  if r =? 0 then Ret b else Raise AttributeError.

(** misc.py:101-108: the primes whose running product stays within [B]. *)
Fixpoint primorial_primes (B pp : Z) (primes : list Z) : list Z :=
  match primes with
  | [] => []
  | prime :: primes =>
      let pp := pp * prime in
      if pp <=? B then prime :: primorial_primes B pp primes else []
  end.

(** misc.py:113-130, [backtrack]; the list [max_tau] is threaded as a pair.  The
    argument [ps] is [p_list[last_i + 1:]]. *)
Definition record (best : Z * Z) (total tau : Z) : Z * Z := if fst best <? tau then (tau, total) else best.

Fixpoint div_backtrack (B : Z) (ps : list Z) (last_e total tau : Z) (best : Z * Z) : Z * Z :=
  let best := record best total tau in
  match ps with
  | [] => best
  | next_p :: ps =>
      (fix loop (todo : list Z) (t_pk : Z) (best : Z * Z) : Z * Z :=
         match todo with
         | [] => best
         | k :: todo =>
             let t_total := total * t_pk in
             if t_total <=? B then
               loop todo (t_pk * next_p) (div_backtrack B ps k t_total (tau * (k + 1)) best)
             else best
         end) (zrange 1 (last_e + 1)) next_p best
  end.

(** misc.py:75-136; the loop over [k] runs while [2**k <= B], that is for
    at most [log2 B] rounds. *)
Definition maximize_divisors (B : Z) : Z * Z :=
  let p_list := primorial_primes B 1 PRIME_LIST in
  fold_left (fun best k => div_backtrack B (tl p_list) k (2 ^ k) (k + 1) best)
    (filter (fun k => 2 ^ k <=? B) (zrange 1 (Z.log2 B + 1))) (1, 1).

(** Integers as fractions. *)
Definition zq (n : Z) : Qc := Q2Qc (inject_Z n).

(** misc.py:166-174, the computation of [values[m]].  [total] is an int or a Fraction
    in the code; [values[1]] makes it a Fraction before the division. *)
Definition bern_value (m : Z) (values : list Qc) : outcome Qc :=
  do '(total, _) <- foldM (fun '(total, binom) k =>
    let binom := binom * (m + 2 - k) / k in
    do v <- pyget values k;
    Ret (if Qc_eq_dec v (zq 0) then total else (total + zq binom * v)%Qc, binom)) (zrange 1 m) (zq 1, 1);
  Ret (- total / zq (m + 1))%Qc.

(** misc.py:139-175. *)
Definition bernoulli_list (n : Z) : outcome (list Qc) :=
  let values := repeat (zq 0) (Z.to_nat (n + 1)) in
  do values <- pyset values 0 (zq 1);
  do values <- pyset values 1 (- zq 1 / zq 2)%Qc;
  foldM (fun values m => do v <- bern_value m values; pyset values m v)
    (map (fun i => 2 * i) (zrange 1 (n / 2 + 1))) values.
