(** * Specifications of the arithmetic functions *)
From Coq Require Import ZArith List Znumtheory.
From Verif Require Import Base.
Import ListNotations.
Open Scope Z_scope.

(** Euler's totient: how many of [1, ..., n] are coprime to [n]. *)
Definition totient (n : Z) : Z :=
  Z.of_nat (length (filter (fun k => Z.gcd k n =? 1) (zrange 1 (n + 1)))).

(** The positive divisors of [n], by definition. *)
Definition all_divisors (n : Z) : list Z := filter (fun d => n mod d =? 0) (zrange 1 (n + 1)).

(** Sum of the [k]-th powers of the divisors; number of divisors. *)
Definition sigma (k n : Z) : Z := zsum (map (fun d => d ^ k) (all_divisors n)).
Definition tau (n : Z) : Z := Z.of_nat (length (all_divisors n)).

(** [m] is the value of the Moebius function at [n]: 0 when the square of a prime
    divides [n], otherwise [(-1)^r] for the number [r] of prime divisors. *)
Definition is_moebius (n m : Z) : Prop :=
  (exists p, prime p /\ (p * p | n) /\ m = 0) \/
  ((forall p, prime p -> ~ (p * p | n)) /\
   exists ps, NoDup ps /\ (forall p, In p ps <-> prime p /\ (p | n)) /\ m = (-1) ^ Z.of_nat (length ps)).

(** [m] is the exponent of the group of units modulo [n]. *)
Definition unit_exponent (n m : Z) : Prop :=
  0 < m /\ forall a, Z.gcd a n = 1 -> (n | a ^ m - 1).
Definition is_carmichael (n m : Z) : Prop :=
  unit_exponent n m /\ forall k, unit_exponent n k -> m <= k.

(** Factorial and primorial. *)
Definition fact_spec (n : Z) : Z := zprod (zrange 1 (n + 1)).
