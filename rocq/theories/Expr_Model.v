(** * Model of the operators of the class Polynomial with Python's dispatch

    A value is an integer or a Polynomial object: its class, its coefficients and its variable name.  When the left
    operand is an integer, Python calls the reflected method of the right one; when both are polynomials, the method
    of the left one (no subclass overrides an operator).  A comparison with an object of a subclass on the right begins
    with the method of the right one, which makes no difference for the equality of lists. *)
From Coq Require Import String ZArith List Bool.
From Verif Require Import Base Poly_Model Expr_Spec.
Import ListNotations.
Open Scope Z_scope.

Inductive pyval := VInt (z : Z) | VPoly (cls : kind) (coeffs : list Z) (variable : string).

(** polynomials.py:14-64, [Polynomial(L, name)]. *)
Definition new_polynomial (cls : kind) (L : list Z) (name : string) : pyval := VPoly cls (polynomial L) name.

(** The result of a method: [parent_class(coeffs, self.variable)] with the class of self. *)
Definition wrap (cls : kind) (variable : string) (r : outcome (list Z)) : outcome pyval := do L <- r; Ret (VPoly cls L variable).

(** polynomials.py:104-121, [__add__]; 123-130, [__radd__]. *)
Definition op_add (a b : pyval) : outcome pyval :=
  match a, b with
  | VInt x, VInt y => Ret (VInt (x + y))
  | VPoly cls p v, VPoly _ q _ => wrap cls v (p_add p (Poly q))
  | VPoly cls p v, VInt c => wrap cls v (p_add p (Num c))
  | VInt c, VPoly cls p v => wrap cls v (p_add p (Num c))
  end.

(** polynomials.py:132-141, [__neg__]. *)
Definition op_neg (a : pyval) : outcome pyval :=
  match a with
  | VInt x => Ret (VInt (- x))
  | VPoly cls p v => wrap cls v (Ret (p_neg p))
  end.

(** polynomials.py:143-160, [__sub__]; 162-169, [__rsub__]. *)
Definition op_sub (a b : pyval) : outcome pyval :=
  match a, b with
  | VInt x, VInt y => Ret (VInt (x - y))
  | VPoly cls p v, VPoly _ q _ => wrap cls v (p_sub p (Poly q))
  | VPoly cls p v, VInt c => wrap cls v (p_sub p (Num c))
  | VInt c, VPoly cls p v => wrap cls v (p_rsub p c)
  end.

(** polynomials.py:171-190, [__mul__]. *)
Definition poly_mul (cls : kind) (p : list Z) (v : string) (o : operand) : outcome pyval := wrap cls v (p_mul p o).
(** polynomials.py:192-199, [__rmul__]: self*other. *)
Definition poly_rmul (cls : kind) (p : list Z) (v : string) (o : operand) : outcome pyval := poly_mul cls p v o.
Definition op_mul (a b : pyval) : outcome pyval :=
  match a, b with
  | VInt x, VInt y => Ret (VInt (x * y))
  | VPoly cls p v, VPoly _ q _ => poly_mul cls p v (Poly q)
  | VPoly cls p v, VInt c => poly_mul cls p v (Num c)
  | VInt c, VPoly cls p v => poly_rmul cls p v (Num c)
  end.

(** polynomials.py:201-211, [__pow__]. *)
Definition op_pow (a : pyval) (k : Z) : outcome pyval :=
  match a with
  | VInt x => do y <- int_pow x k; Ret (VInt y)
  | VPoly cls p v => wrap cls v (p_pow p k)
  end.

(** polynomials.py:220-235, [__eq__]; for an integer on the left Python tries [b == a]. *)
Definition op_eq (a b : pyval) : bool :=
  match a, b with
  | VInt x, VInt y => x =? y
  | VPoly _ p _, VPoly _ q _ => p_eq p (Poly q)
  | VPoly _ p _, VInt c => p_eq p (Num c)
  | VInt c, VPoly _ p _ => p_eq p (Num c)
  end.
(** polynomials.py:237-252, [__ne__]. *)
Definition op_ne (a b : pyval) : bool :=
  match a, b with
  | VInt x, VInt y => negb (x =? y)
  | VPoly _ p _, VPoly _ q _ => let is_equal := p_eq p (Poly q) in negb is_equal
  | VPoly _ p _, VInt c => let is_equal := p_eq p (Num c) in negb is_equal
  | VInt c, VPoly _ p _ => let is_equal := p_eq p (Num c) in negb is_equal
  end.

(** polynomials.py:254-263, [__call__]; 265-274, [coefficients]. *)
Definition op_call (p : list Z) (x : Z) : Z := p_call p x.
Definition op_coefficients (p : list Z) : list Z := p.

(** The value of an expression, the operands evaluated from left to right. *)
Fixpoint evaluate (e : pexpr) : outcome pyval :=
  match e with
  | ENum c => Ret (VInt c)
  | EPoly cls L name => Ret (new_polynomial cls L name)
  | ENeg a => do u <- evaluate a; op_neg u
  | EAdd a b => do u <- evaluate a; do v <- evaluate b; op_add u v
  | ESub a b => do u <- evaluate a; do v <- evaluate b; op_sub u v
  | EMul a b => do u <- evaluate a; do v <- evaluate b; op_mul u v
  | EPow a k => do u <- evaluate a; op_pow u k
  end.

(** polynomials.py:346-352 and 313-318: [quo_rem] and [pseudo_quo_rem] with a number; every exception becomes a
    ValueError. *)
Definition number_division (r : outcome (list Z * list Z)) : outcome (list Z * list Z) :=
  match r with Raise _ => Raise ValueError | r => r end.
Definition quo_rem_number (p : list Z) (c : Z) : outcome (list Z * list Z) := number_division (quo_rem p [c]).
Definition pseudo_quo_rem_number (p : list Z) (c : Z) : outcome (list Z * list Z) := number_division (pseudo_quo_rem p [c]).
