(** * Colourings *)
From Coq Require Import ZArith List Permutation.
From Verif Require Import Base Dict Graph_Spec.
Import ListNotations.
Open Scope Z_scope.

(** No two of the vertices are adjacent. *)
Definition independent g (c : list Z) : Prop := forall u v, In u c -> In v c -> ~ edge g u v.

(** A dictionary that gives each vertex one colour of [lo, lo + k), with every one of these colours
    used, and adjacent vertices in different colours. *)
Definition proper_map g (lo k : Z) (cm : list (Z * Z)) : Prop :=
  NoDup (map fst cm) /\ (forall v, vertex g v <-> In v (map fst cm)) /\
  (forall c, (exists v, In (v, c) cm) <-> lo <= c < lo + k) /\
  (forall u v c d, In (u, c) cm -> In (v, d) cm -> edge g u v -> c <> d).

(** A partition of the vertices into k classes, none empty and each independent. *)
Definition proper_classes g (k : Z) (L : list (list Z)) : Prop :=
  Z.of_nat (length L) = k /\ Permutation (concat L) (map fst g) /\
  (forall c, In c L -> c <> [] /\ independent g c).

(** The vertices can be coloured with the colours 1, ..., k. *)
Definition colourable g (k : Z) : Prop :=
  exists f : Z -> Z, (forall v, vertex g v -> 1 <= f v <= k) /\ (forall u v, edge g u v -> f u <> f v).

Definition chromatic_number g (k : Z) : Prop := colourable g k /\ forall k', colourable g k' -> k <= k'.

(** Every two distinct vertices are adjacent. *)
Definition complete g : Prop := forall u v, vertex g u -> vertex g v -> u <> v -> edge g u v.

(** The number of neighbours of v. *)
Definition degree_of g (v d : Z) : Prop := exists N, NoDup N /\ (forall x, In x N <-> edge g v x) /\ d = Z.of_nat (length N).
