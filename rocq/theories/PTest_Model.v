(** * Model of miller_rabin_deterministic (rosemary/number_theory/primes/primality.py) *)
From Coq Require Import ZArith List Bool.
From Verif Require Import Base Py Primality_Model.
Import ListNotations.
Open Scope Z_scope.

(** primality.py:113-136; [lg n] is the value of int(2*log(n)**2), computed in floating point. *)
Definition miller_rabin_deterministic (lg : Z -> Z) (n : Z) : outcome bool :=
  if n <? 2 then Ret false else allM (miller_rabin n) (zrange 2 (Z.min (lg n) (n - 1) + 1)).
