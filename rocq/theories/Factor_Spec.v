(** * Specification of prime factorizations *)
From Coq Require Import ZArith List Znumtheory Sorted.
From Verif Require Import Base.
Import ListNotations.
Open Scope Z_scope.

(** The value of a factorization [[(p1, e1); ...; (pk, ek)]]. *)
Definition fac_value (l : list (Z * Z)) : Z := zprod (map (fun pe => fst pe ^ snd pe) l).

(** [l] is a factorization of [n] with bases satisfying [P]: increasing bases,
    positive exponents. *)
Definition gen_factorization (P : Z -> Prop) (n : Z) (l : list (Z * Z)) : Prop :=
  StronglySorted (fun a b => fst a < fst b) l /\
  (forall p e, In (p, e) l -> P p /\ 1 <= e) /\
  fac_value l = n.

(** [l] is the prime factorization of [n >= 1]. *)
Definition factorization (n : Z) (l : list (Z * Z)) : Prop := gen_factorization prime n l.

(** For [n < 0] the pair [(-1, 1)] comes first. *)
Definition signed_factorization (P : Z -> Prop) (n : Z) (l : list (Z * Z)) : Prop :=
  (0 < n /\ gen_factorization P n l) \/
  (n < 0 /\ exists l', l = (-1, 1) :: l' /\ gen_factorization P (- n) l').
