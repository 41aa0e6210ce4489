(** * Independent sets *)
From Coq Require Import ZArith List.
From Verif Require Import Base Dict Graph_Spec.
Import ListNotations.
Open Scope Z_scope.

(** Distinct vertices, no two of them adjacent. *)
Definition independent_set g (c : list Z) : Prop :=
  NoDup c /\ (forall u, In u c -> vertex g u) /\ forall u v, In u c -> In v c -> ~ edge g u v.

(** Every other vertex is adjacent to one of them. *)
Definition maximal_independent_set g c : Prop :=
  independent_set g c /\ forall v, vertex g v -> ~ In v c -> exists u, In u c /\ edge g u v.

(** The greatest number of vertices of an independent set, and a set with that many. *)
Definition maximum_independent g (size : Z) (c : list Z) : Prop :=
  independent_set g c /\ size = Z.of_nat (length c) /\ forall c', independent_set g c' -> Z.of_nat (length c') <= size.
