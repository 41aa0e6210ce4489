(** * What it means to list the primes *)
From Coq Require Import ZArith List Znumtheory Sorted.
Open Scope Z_scope.

(** [l] is the strictly increasing list of all primes [<= n]. *)
Definition primes_upto (n : Z) (l : list Z) : Prop :=
  StronglySorted Z.lt l /\ forall p, In p l <-> prime p /\ p <= n.

(** [l] is the strictly increasing list of all primes [p] with [a <= p <= b]. *)
Definition primes_between (a b : Z) (l : list Z) : Prop :=
  StronglySorted Z.lt l /\ forall p, In p l <-> prime p /\ a <= p <= b.

(** [l] is the list of the first [n] primes: [n] primes in increasing order, with
    no prime left out below any of them. *)
Definition first_primes (n : Z) (l : list Z) : Prop :=
  Z.of_nat (length l) = n /\ StronglySorted Z.lt l /\
  (forall p, In p l -> prime p) /\
  (forall p q, In p l -> prime q -> q <= p -> In q l).
