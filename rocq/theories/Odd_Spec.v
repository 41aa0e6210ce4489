(** * Graphs whose vertices are texts; subsequences *)
From Coq Require Import Ascii String ZArith List Sorting.Sorted.
From Verif Require Import Base Repr_Spec.
Import ListNotations.
Open Scope Z_scope.

(** [subsequence u l]: u is what remains of l when some elements are removed. *)
Inductive subsequence {A} : list A -> list A -> Prop :=
| sub_nil : subsequence [] []
| sub_take x u l : subsequence u l -> subsequence (x :: u) (x :: l)
| sub_skip x u l : subsequence u l -> subsequence u (x :: l).

Definition disjoint (u v : text) : Prop := forall c, In c u -> In c v -> False.

(** A graph is a dictionary of dictionaries. *)
Definition tvertex (g : list (text * list (text * Z))) (u : text) : Prop := In u (map fst g).
Definition tweight (g : list (text * list (text * Z))) (u v : text) (w : Z) : Prop := exists a, In (u, a) g /\ In (v, w) a.
Definition distinct_keys (g : list (text * list (text * Z))) : Prop :=
  NoDup (map fst g) /\ forall u a, In (u, a) g -> NoDup (map fst a).

(** A set of the numbers 0, ..., n - 1 as a text: its elements in increasing order, in decimal. *)
Definition set_text (S : list Z) : text := List.concat (map str S).

(** S is a set of k - 1 of the numbers 0, ..., 2k - 2, as an increasing list. *)
Definition odd_set (k : Z) (S : list Z) : Prop := StronglySorted Z.lt S /\ Z.of_nat (length S) = k - 1 /\ forall i, In i S -> 0 <= i <= 2 * k - 2.
