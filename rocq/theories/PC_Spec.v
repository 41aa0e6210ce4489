(** * Specification: counting and summing primes *)
From Coq Require Import ZArith List.
From Verif Require Import Base Primes_Spec.
Open Scope Z_scope.

(** k is the number of the primes <= n, and s is their sum; [primes_upto] is the strictly increasing list of them. *)
Definition prime_count_is (n k : Z) : Prop := exists l, primes_upto n l /\ k = Z.of_nat (length l).
Definition prime_sum_is (n s : Z) : Prop := exists l, primes_upto n l /\ s = zsum l.

(** The number is exact on these: see C04. *)
Definition exact_sqrt_range (n : Z) : Prop := n < 2 ^ 52 \/ 2 ^ 60 < n.

(** The double-precision roots taken inside Meissel's and Lehmer's methods,
    [int(x**0.5)] and [int(x**(1.0/3.0))], are exact on the arguments used. *)
Definition sqrt_exact (n : Z) (fsqrt : Z -> Z) : Prop := forall x, 0 <= x <= n -> fsqrt x = Z.sqrt x.
Definition floats_exact (n : Z) (fsqrt fcbrt : Z -> Z) : Prop := forall x, 0 <= x <= n -> fsqrt x = Z.sqrt x /\ 0 <= fcbrt x /\ fcbrt x * fcbrt x * fcbrt x <= x < (fcbrt x + 1) * (fcbrt x + 1) * (fcbrt x + 1).

(** [root], [t] and [s] are the integer parts of x^(2/3), x^(1/3) and x^(1/2). *)
Definition roots_exact (x root t s : Z) : Prop :=
  (0 <= root /\ root ^ 3 <= x ^ 2 < (root + 1) ^ 3) /\ (0 <= t /\ t ^ 3 <= x < (t + 1) ^ 3) /\ (0 <= s /\ s ^ 2 <= x < (s + 1) ^ 2).
