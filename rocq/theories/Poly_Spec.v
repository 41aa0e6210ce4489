(** * Polynomials and power series given by their coefficients *)
From Coq Require Import ZArith List.
From Verif Require Import Base.
Import ListNotations.
Open Scope Z_scope.

(** The coefficient of x^i in the polynomial with the coefficient list A = [a0, a1, ...]. *)
Definition coef (A : list Z) (i : Z) : Z := if i <? 0 then 0 else nth (Z.to_nat i) A 0.

(** The coefficient of x^i in the product of two series: the sum of f_j g_(i-j), j = 0, ..., i. *)
Definition conv (f g : Z -> Z) (i : Z) : Z := zsum (map (fun j => f j * g (i - j)) (zrange 0 (i + 1))).

(** The series 1, and the k-th power of a series. *)
Definition unit_series (i : Z) : Z := if i =? 0 then 1 else 0.
Fixpoint cpow (f : Z -> Z) (k : nat) : Z -> Z :=
  match k with O => unit_series | S k' => conv f (cpow f k') end.

(** The value at x of the polynomial with the coefficient list A. *)
Definition value (A : list Z) (x : Z) : Z :=
  zsum (map (fun i => coef A i * x ^ i) (zrange 0 (Z.of_nat (length A)))).

(** The coefficient list of a Polynomial object: not empty, without superfluous zeros at the end. *)
Definition normal (A : list Z) : Prop := A <> [] /\ (length A = 1%nat \/ last A 0 <> 0).
