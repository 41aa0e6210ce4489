(** * Specification: continued fractions of square roots and Pell equations *)
From Coq Require Import ZArith List.
Import ListNotations.
Open Scope Z_scope.

Definition not_square (d : Z) : Prop := forall k, k * k <> d.
Definition solution (D N x y : Z) : Prop := x * x - D * y * y = N.

(** (x, y) is the least solution in positive integers, in both coordinates. *)
Definition least_positive (D N x y : Z) : Prop :=
  1 <= x /\ 1 <= y /\ solution D N x y /\ forall x' y', 1 <= x' -> 1 <= y' -> solution D N x' y' -> x <= x' /\ y <= y'.

(** The numbers on which the floating-point square root of the library is exact. *)
Definition exact_range (d : Z) : Prop := d < 2 ^ 52 \/ 2 ^ 60 < d.

(** The convergents x/y of the continued fraction [q 0; q 1, q 2, ...]. *)
Record convergents_of (q x y : nat -> Z) : Prop := {
  conv_0 : x 0%nat = q 0%nat /\ y 0%nat = 1;
  conv_1 : x 1%nat = q 1%nat * q 0%nat + 1 /\ y 1%nat = q 1%nat;
  conv_rec : forall k, x (S (S k)) = q (S (S k)) * x (S k) + x k /\ y (S (S k)) = q (S (S k)) * y (S k) + y k }.

(** [q] are the partial quotients of the square root of d: they are positive integers, and the convergents are alternately
    below and above the root (so that the convergents, whose denominators grow, tend to it). *)
Definition cf_sqrt (d : Z) (q : nat -> Z) : Prop :=
  (forall k, 1 <= q k) /\ forall x y, convergents_of q x y -> forall k,
    1 <= y k /\ Z.of_nat k <= y k /\ (if Nat.even k then x k * x k < d * (y k * y k) else d * (y k * y k) < x k * x k).

(** The product of x + y sqrt D with u + v sqrt D, k times. *)
Fixpoint unit_power (D u v : Z) (xy : Z * Z) (k : nat) : Z * Z :=
  match k with
  | O => xy
  | S k => let '(x, y) := unit_power D u v xy k in (x * u + D * y * v, x * v + y * u)
  end.

(** l lists the square roots of a modulo n. *)
Definition square_roots (a n : Z) (l : list Z) : Prop := forall x, In x l <-> 0 <= x < n /\ (n | x * x - a).

(** b is the bound of pell.py:253 or 256 if the floating-point square root is exact: the numbers 0 <= x < b are those with
    x^2 <= (u + 1) N / 2, respectively x^2 <= (u - 1) (-N) / 2. *)
Definition exact_bound (u N b : Z) : Prop :=
  forall x, 0 <= x -> (x < b <-> 2 * (x * x) <= (if 0 <? N then (u + 1) * N else (u - 1) * - N)).
