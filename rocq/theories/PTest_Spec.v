(** * Specification: probable primes *)
From Coq Require Import ZArith.
Open Scope Z_scope.

(** n is a strong probable prime to the base a: with n - 1 = 2^s t and t odd, a^t = 1 or -1 modulo n, or
    a^(2^i t) = -1 modulo n for some 0 < i < s. *)
Definition strong_probable_prime (n a : Z) : Prop :=
  exists s t, 0 <= s /\ Z.odd t = true /\ n - 1 = 2 ^ s * t /\
    ((n | a ^ t - 1) \/ (n | a ^ t + 1) \/ exists i, 0 < i < s /\ (n | a ^ (2 ^ i * t) + 1)).
