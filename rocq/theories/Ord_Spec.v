(** * Multiplicative orders and primitive roots *)
From Coq Require Import ZArith List Znumtheory.
From Verif Require Import Base Arith_Spec.
Open Scope Z_scope.

(** d is the order of a modulo n: the least positive exponent with a^d = 1 (mod n). *)
Definition order_of (n a d : Z) : Prop :=
  0 < d /\ a ^ d mod n = 1 mod n /\ forall k, 0 < k < d -> a ^ k mod n <> 1 mod n.

(** g is a primitive root modulo n: its order is the number of units (and it is a unit). *)
Definition primitive (n g : Z) : Prop := Z.gcd g n = 1 /\ order_of n g (totient n).
