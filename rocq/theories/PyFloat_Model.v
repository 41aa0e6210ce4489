(** * The one floating-point expression of the number-theory code: [int(n**0.5)].

    Modelled as IEEE-754 binary64: [n] is converted to a double (round to
    nearest, ties to even) and the square root is correctly rounded (to nearest),
    then truncated.  Simplification: the C library's [pow(x, 0.5)] is taken to be
    correctly rounded. *)
From Coq Require Import ZArith.
From Verif Require Import Base.
Open Scope Z_scope.

(** [a / 2^k] rounded to nearest, ties to even. *)
Definition rne (a k : Z) : Z :=
  let q := a / 2 ^ k in
  let r := a mod 2 ^ k in
  if 2 * r <? 2 ^ k then q
  else if 2 ^ k <? 2 * r then q + 1
  else q + q mod 2.

(** The double nearest to the integer [n >= 0] (always an integer). *)
Definition float_of_int (n : Z) : Z :=
  if n <? 2 ^ 53 then n
  else let k := Z.log2 n - 52 in rne n k * 2 ^ k.

(** [int(n**0.5)] for [n >= 0], as used in core.py:529, sieves.py and others;
    CPython raises OverflowError when [n] does not fit into a double. *)
Definition int_pow_half (n : Z) : outcome Z :=
  if 2 ^ 1024 - 2 ^ 970 <=? n then Raise OverflowError
  else
    let v := float_of_int n in
    if v =? 0 then Ret 0
    else
      let j := Z.log2 v / 2 in
      if j <=? 52 then
        let w := v * 4 ^ (52 - j) in
        let f := Z.sqrt w in
        let s := if w <=? f * f + f then f else f + 1 in
        Ret (s / 2 ^ (52 - j))
      else
        let c := 4 ^ (j - 52) in
        let f := Z.sqrt (v / c) in
        let s := if 4 * v <? (2 * f + 1) * (2 * f + 1) * c then f else f + 1 in
        Ret (s * 2 ^ (j - 52)).
