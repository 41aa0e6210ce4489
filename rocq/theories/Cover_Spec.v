(** * Exact covers by bit vectors *)
From Coq Require Import ZArith List Sorting.Sorted.
Import ListNotations.
Open Scope Z_scope.

(** All vectors fit in m bits, and not all in fewer. *)
Definition is_width (ints : list Z) (m : Z) : Prop :=
  0 <= m /\ (forall v, In v ints -> v < 2 ^ m) /\ (0 < m -> exists v, In v ints /\ 2 ^ (m - 1) <= v).

(** j is the lowest set bit of v. *)
Definition lowest_bit (v j : Z) : Prop := 0 <= j /\ Z.testbit v j = true /\ forall i, 0 <= i < j -> Z.testbit v i = false.

(** [I] is a set of positions in [ints], listed by the lowest bit of the vectors there,
    such that each of the m bits is set in exactly one of these vectors. *)
Definition exact_cover (ints : list Z) (m : Z) (I : list nat) : Prop :=
  (forall i, In i I -> (i < length ints)%nat) /\
  StronglySorted (fun i j => exists a b, lowest_bit (nth i ints 0) a /\ lowest_bit (nth j ints 0) b /\ a < b) I /\
  (forall b, 0 <= b < m -> length (filter (fun i => Z.testbit (nth i ints 0) b) I) = 1%nat).

(** Langford sequences: 2n numbers from 1 to n, in which the two occurrences of k (and
    there are exactly two) have k other numbers between them. *)
Definition langford (n : Z) (s : list Z) : Prop :=
  length s = Z.to_nat (2 * n) /\ Forall (fun k => 1 <= k <= n) s /\
  forall k, 1 <= k <= n -> exists r, (r + Z.to_nat k + 1 < length s)%nat /\
    forall i, (i < length s)%nat -> nth i s 0 = k <-> i = r \/ i = (r + Z.to_nat k + 1)%nat.
