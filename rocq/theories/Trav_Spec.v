(** * Walks and distances *)
From Coq Require Import ZArith List.
From Verif Require Import Graph_Spec.
Import ListNotations.
Open Scope Z_scope.

(** A walk from s to v with n edges. *)
Inductive walk (g : list (Z * list (Z * Z))) (s : Z) : nat -> Z -> Prop :=
| walk_0 : walk g s O s
| walk_S n u v : walk g s n u -> edge g u v -> walk g s (S n) v.

Definition reachable g s v : Prop := exists n, walk g s n v.

(** The least number of edges of a walk from s to v. *)
Definition dist g s v (n : nat) : Prop := walk g s n v /\ forall m, walk g s m v -> (n <= m)%nat.

(** [prev] is a dictionary of parents: a is an ancestor of v (possibly v itself). *)
Inductive ancestor (prev : list (Z * option Z)) : Z -> Z -> Prop :=
| anc_refl v : In v (map fst prev) -> ancestor prev v v
| anc_step a p v : In (v, Some p) prev -> ancestor prev a p -> ancestor prev a v.

(** A tree rooted at s: the root has no parent, the parent of another vertex is joined
    to it by an edge, and the root is an ancestor of every vertex. *)
Definition rooted_tree g s (prev : list (Z * option Z)) : Prop :=
  NoDup (map fst prev) /\ (forall v, In (v, None) prev <-> v = s) /\
  (forall v p, In (v, Some p) prev -> edge g p v) /\
  (forall v, In v (map fst prev) -> ancestor prev s v).

(** A number of edges that max_depth allows. *)
Definition within (max_depth : option Z) (n : nat) : Prop :=
  match max_depth with None => True | Some m => Z.of_nat n <= m end.
