(** * More operations of rosemary/algebra/polynomials/polynomials.py with numbers *)
From Coq Require Import ZArith List Bool.
From Verif Require Import Base Py Lists Poly_Model.
Import ListNotations.
Open Scope Z_scope.

(** try: ... except: raise ValueError *)
Definition coerced {A} (r : outcome A) : outcome A := match r with Raise _ => Raise ValueError | r => r end.

(** polynomials.py:345-352, [quo_rem], and 313-318, [pseudo_quo_rem], for a number: Polynomial(c) is the divisor. *)
Definition quo_rem_number (p : list Z) (c : Z) : outcome (list Z * list Z) := coerced (quo_rem p [c]).
Definition pseudo_quo_rem_number (p : list Z) (c : Z) : outcome (list Z * list Z) := coerced (pseudo_quo_rem p [c]).

(** x + y where one of them is a Polynomial (polynomials.py:104-130), or both are integers; a number on the left calls
    [__radd__], which is [__add__] with the operands swapped. *)
Definition op_plus (x y : operand) : outcome operand :=
  match x, y with
  | Num a, Num b => Ret (Num (a + b))
  | Num _, Poly q => do s <- p_add q x; Ret (Poly s)
  | Poly p, _ => do s <- p_add p y; Ret (Poly s)
  end.
(** sum(l), with the start value 0. *)
Definition op_total (l : list operand) : outcome operand := foldM op_plus l (Num 0).
