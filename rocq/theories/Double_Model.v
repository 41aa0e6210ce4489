(** * Python floats as rationals

    IEEE-754 binary64, round to nearest with ties to even, gradual underflow.
    Simplification: a result above the largest double is kept as a rational instead of
    becoming inf (no theorem uses such a result). *)
From Coq Require Import ZArith QArith.
From Verif Require Import Base.
Open Scope Z_scope.

(** a / b rounded to the nearest integer, ties to even. *)
Definition rne_div (a b : Z) : Z :=
  let q := a / b in
  let r := a mod b in
  if 2 * r <? b then q else if b <? 2 * r then q + 1 else q + q mod 2.

(** m * 2^e. *)
Definition scale (m e : Z) : Q := if 0 <=? e then inject_Z (m * 2 ^ e) else (m # Z.to_pos (2 ^ (- e)))%Q.

(** The exponent of the last bit of the double nearest to n / d, for n, d > 0. *)
Definition last_bit (n d : Z) : Z :=
  let l := Z.log2 n - Z.log2 d in
  if (if 0 <=? l then d * 2 ^ l <=? n else d <=? n * 2 ^ (- l)) then l - 52 else l - 53.
Definition fl_pos (n d : Z) : Q :=
  let e := Z.max (last_bit n d) (-1074) in
  scale (if 0 <=? e then rne_div n (d * 2 ^ e) else rne_div (n * 2 ^ (- e)) d) e.

(** The double nearest to q. *)
Definition fl (q : Q) : Q :=
  match Qnum q with
  | 0 => 0%Q
  | Zpos n => fl_pos (Zpos n) (Zpos (Qden q))
  | Zneg n => (- fl_pos (Zpos n) (Zpos (Qden q)))%Q
  end.

(** float(n) for an integer n, also the implicit conversion of an int operand. *)
Definition flt (n : Z) : outcome Q :=
  if 2 ^ 1024 - 2 ^ 970 <=? Z.abs n then Raise OverflowError else Ret (fl (inject_Z n)).
