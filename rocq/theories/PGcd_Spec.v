(** * Specification: divisibility of polynomials with integer coefficients *)
From Coq Require Import ZArith List.
From Verif Require Import Base Poly_Spec.
Import ListNotations.
Open Scope Z_scope.

(** The polynomial w divides p: p = w s for some polynomial s with integer coefficients. *)
Definition pdivides (w p : list Z) : Prop := exists s, forall i, coef p i = conv (coef w) (coef s) i.

(** g is a greatest common divisor of a and b among the polynomials with integer coefficients. *)
Definition is_pgcd (g a b : list Z) : Prop :=
  pdivides g a /\ pdivides g b /\ forall w, pdivides w a -> pdivides w b -> pdivides w g.

(** w is a constant polynomial: its degree is not positive. *)
Definition constant (w : list Z) : Prop := forall i, 0 < i -> coef w i = 0.

(** The coefficients of p have no common divisor other than 1 and -1. *)
Definition primitive (p : list Z) : Prop := forall k, (forall i, (k | coef p i)) -> (k | 1).
