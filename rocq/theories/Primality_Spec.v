(** * Specifications for trial division and primality *)
From Coq Require Import ZArith Znumtheory.
Open Scope Z_scope.

(** [r] is the least prime divisor of [n]. *)
Definition least_prime_factor (n r : Z) : Prop :=
  prime r /\ (r | n) /\ forall q, prime q -> (q | n) -> r <= q.

(** What trial division by the primes [<= bound] finds: the least prime divisor
    if it is [<= bound], and [n] itself when no prime [<= bound] divides [n]. *)
Definition trial_result (n bound r : Z) : Prop :=
  (least_prime_factor n r /\ r <= bound) \/
  (r = n /\ forall q, prime q -> q <= bound -> ~ (q | n)).

(** [r] is the least prime greater than [n]. *)
Definition least_prime_above (n r : Z) : Prop :=
  prime r /\ n < r /\ forall q, prime q -> n < q -> r <= q.
