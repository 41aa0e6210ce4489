(** * Specification of kernels modulo 2 *)
From Coq Require Import ZArith List Bool Znumtheory.
From Verif Require Import Base.
Import ListNotations.
Open Scope Z_scope.

(** Entry [j] of the combination of the vectors [rows] with coefficients [v]. *)
Definition dot (v : list Z) (rows : list (list Z)) (j : nat) : Z :=
  zsum (map (fun '(x, row) => x * nth j row 0) (combine v rows)).

(** [v] selects rows whose sum is even in each of the [cols] columns. *)
Definition in_kernel (cols : nat) (rows : list (list Z)) (v : list Z) : Prop :=
  length v = length rows /\ (forall x, In x v -> x = 0 \/ x = 1) /\
  forall j, (j < cols)%nat -> Z.even (dot v rows j) = true.

(** [w] is the sum modulo 2 of the vectors of [vs] that [s] selects. *)
Definition is_sum_mod2 (vs : list (list Z)) (w s : list Z) : Prop :=
  length s = length vs /\ (forall x, In x s -> x = 0 \/ x = 1) /\
  forall i, (i < length w)%nat -> nth i w 0 = dot s vs i mod 2.

(** [vs] is a basis of the kernel. *)
Definition kernel_basis (cols : nat) (rows vs : list (list Z)) : Prop :=
  (forall v, In v vs -> in_kernel cols rows v) /\
  forall w, in_kernel cols rows w -> exists! s, is_sum_mod2 vs w s.

(** The value of a vector of exponents over a factor base. *)
Definition base_value (base es : list Z) : Z := zprod (map (fun '(p, e) => p ^ e) (combine base es)).

(** A factor base: distinct primes, at least one, preceded or not by -1. *)
Definition factor_base (base : list Z) : Prop :=
  exists ps, (base = ps \/ base = -1 :: ps) /\ ps <> [] /\ NoDup ps /\ forall p, In p ps -> Znumtheory.prime p.

(** Exponent vectors over [base]. *)
Definition exponent_vector (base es : list Z) : Prop := length es = length base /\ forall e, In e es -> 0 <= e.
