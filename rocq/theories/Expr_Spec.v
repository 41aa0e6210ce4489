(** * Arithmetic expressions in polynomials and integers: what they mean *)
From Coq Require Import String ZArith List Bool.
From Verif Require Import Base Poly_Spec.
Import ListNotations.
Open Scope Z_scope.

(** The kinds of polynomials: Polynomial, PolyZZ and PolyQQ. *)
Inductive kind := KPoly | KZZ | KQQ.

(** An expression: an integer, Polynomial(L, name) (or PolyZZ(L, name), PolyQQ(L, name)), -a, a + b, a - b, a * b, a ** k. *)
Inductive pexpr :=
| ENum (c : Z)
| EPoly (cls : kind) (L : list Z) (name : string)
| ENeg (a : pexpr)
| EAdd (a b : pexpr)
| ESub (a b : pexpr)
| EMul (a b : pexpr)
| EPow (a : pexpr) (k : Z).

(** Its value at x. *)
Fixpoint meaning (e : pexpr) (x : Z) : Z :=
  match e with
  | ENum c => c
  | EPoly _ L _ => value L x
  | ENeg a => - meaning a x
  | EAdd a b => meaning a x + meaning b x
  | ESub a b => meaning a x - meaning b x
  | EMul a b => meaning a x * meaning b x
  | EPow a k => meaning a x ^ k
  end.

(** The class and the variable name of the first polynomial in it, if there is one. *)
Fixpoint first_polynomial (e : pexpr) : option (kind * string) :=
  match e with
  | ENum _ => None
  | EPoly cls _ name => Some (cls, name)
  | ENeg a | EPow a _ => first_polynomial a
  | EAdd a b | ESub a b | EMul a b => match first_polynomial a with Some c => Some c | None => first_polynomial b end
  end.

(** Two things are excluded: a number subtracted from a polynomial, and powers of the zero polynomial; and negative
    exponents. *)
Fixpoint allowed (e : pexpr) : Prop :=
  match e with
  | ENum _ | EPoly _ _ _ => True
  | ENeg a => allowed a
  | EAdd a b | EMul a b => allowed a /\ allowed b
  | ESub a b => allowed a /\ allowed b /\ (first_polynomial a <> None -> first_polynomial b <> None)
  | EPow a k => allowed a /\ 0 <= k /\ (first_polynomial a <> None -> exists x, meaning a x <> 0)
  end.
