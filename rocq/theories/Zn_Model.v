(** * rosemary/number_theory/zn_arithmetic.py: linear congruences *)
From Coq Require Import ZArith List Bool.
From Verif Require Import Base Core_Model Lists.
Import ListNotations.
Open Scope Z_scope.

(** zn_arithmetic.py:735-781.  [b % d] and the divisions by [d] are by
    [d = gcd(a, n) >= 1], so they cannot raise. *)
Definition linear_congruence (a b n : Z) : outcome (list Z) :=
  if n <? 2 then Raise ValueError
  else
    do '(u, v, d) <- ext_gcd a n;
    if negb (b mod d =? 0) then Ret []
    else
      let x0 := b * u / d in
      Ret (zsort (map (fun k => (x0 + k * n / d) mod n) (zrange 0 d))).
