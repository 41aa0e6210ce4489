(** * Hamiltonian paths *)
From Coq Require Import ZArith List Permutation.
From Verif Require Import Base Dict Graph_Spec.
Import ListNotations.
Open Scope Z_scope.

(** Successive vertices are adjacent. *)
Definition successive g (p : list Z) : Prop := forall a u v b, p = a ++ u :: v :: b -> edge g u v.

(** A sequence with every vertex exactly once and successive vertices adjacent. *)
Definition hamiltonian_path g (p : list Z) : Prop := Permutation p (map fst g) /\ successive g p.

(** v can be reached from u along edges between the vertices of S. *)
Inductive reach_in g (S : list Z) (u : Z) : Z -> Prop :=
| reach_here : In u S -> reach_in g S u u
| reach_step v w : reach_in g S u v -> edge g v w -> In w S -> reach_in g S u w.

Definition connected_in g (S : list Z) : Prop := forall u v, In u S -> In v S -> reach_in g S u v.
