(** * Independent specifications used in the statements about core.py *)
From Coq Require Import ZArith List.
From Verif Require Import Base.
Import ListNotations.
Open Scope Z_scope.

(** Number of ones in the binary expansion of [|n|]. *)
Definition popcount (n : Z) : Z :=
  Z.of_nat (length (filter (Z.testbit (Z.abs n)) (zrange 0 (bit_length n)))).

(** [r] is the integer part of the n-th root of [m]. *)
Definition is_floor_root (n m r : Z) : Prop := 0 <= r /\ r ^ n <= m < (r + 1) ^ n.

(** Pairwise coprime moduli (by position). *)
Definition pairwise_coprime (ms : list Z) : Prop :=
  ForallOrdPairs (fun a b => Z.gcd a b = 1) ms.

(** [x] solves all the congruences. *)
Definition solves (x : Z) (cs : list (Z * Z)) : Prop :=
  forall a m, In (a, m) cs -> (m | x - a).
