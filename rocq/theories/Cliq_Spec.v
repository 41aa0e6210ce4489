(** * Cliques *)
From Coq Require Import ZArith List.
From Verif Require Import Base Dict Graph_Spec.
Import ListNotations.
Open Scope Z_scope.

(** Distinct vertices that are pairwise adjacent. *)
Definition clique g (c : list Z) : Prop :=
  NoDup c /\ (forall u, In u c -> vertex g u) /\ forall u v, In u c -> In v c -> u <> v -> edge g u v.

(** No other vertex is adjacent to all of them. *)
Definition maximal_clique g c : Prop :=
  clique g c /\ forall v, vertex g v -> ~ In v c -> exists u, In u c /\ ~ edge g u v.

Definition same_elements (c c' : list Z) : Prop := forall x, In x c <-> In x c'.

(** L lists the sets with the property F, each exactly once (in any order, and with the
    elements of each set in any order). *)
Definition lists_once (F : list Z -> Prop) (L : list (list Z)) : Prop :=
  (forall c, In c L -> F c) /\
  (forall c, F c -> exists c', In c' L /\ same_elements c c') /\
  (forall L1 c L2 c' L3, L = L1 ++ c :: L2 ++ c' :: L3 -> ~ same_elements c c').

(** The greatest number of vertices of a clique, and a clique with that many. *)
Definition maximum_clique g (size : Z) (c : list Z) : Prop :=
  clique g c /\ size = Z.of_nat (length c) /\ forall c', clique g c' -> Z.of_nat (length c') <= size.

(** The total of the weights. *)
Definition weigh (wt : Z -> Z) (c : list Z) : Z := fold_right (fun v t => wt v + t) 0 c.

Definition maximum_weight_clique_of g wt (w : Z) (c : list Z) : Prop :=
  clique g c /\ w = weigh wt c /\ forall c', clique g c' -> weigh wt c' <= w.
