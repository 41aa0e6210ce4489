(** * Weighted walks and distances *)
From Coq Require Import ZArith List.
From Verif Require Import Base Dict Graph_Spec Trav_Spec.
Import ListNotations.
Open Scope Z_scope.

(** A walk from u to v of total weight W. *)
Inductive wwalk (g : list (Z * list (Z * Z))) (u : Z) : Z -> Z -> Prop :=
| wwalk_nil : wwalk g u u 0
| wwalk_snoc v w W c : wwalk g u v W -> weight g v w = Some c -> wwalk g u w (W + c).

(** The vertices of a walk from u to v of weight W. *)
Inductive vpath (g : list (Z * list (Z * Z))) (u : Z) : list Z -> Z -> Z -> Prop :=
| vpath_nil : vpath g u [u] u 0
| vpath_snoc l v w W c : vpath g u l v W -> weight g v w = Some c -> vpath g u (l ++ [w]) w (W + c).

(** d is the least weight of a walk from u to v. *)
Definition shortest g u v (d : Z) : Prop := wwalk g u v d /\ forall W, wwalk g u v W -> d <= W.

Definition nonneg (g : list (Z * list (Z * Z))) : Prop := forall u v c, weight g u v = Some c -> 0 <= c.

(** A dictionary gives each vertex its distance from s, or inf ([None]) if there is no walk. *)
Definition exact_distances g s (dist : list (Z * option Z)) : Prop :=
  forall v, vertex g v -> exists d, dget dist v = Some d /\
    match d with Some d => shortest g s v d | None => forall W, ~ wwalk g s v W end.

(** Following the predecessors from v leads to s, along edges of total weight W. *)
Inductive prev_path g (prev : list (Z * option Z)) (s : Z) : Z -> Z -> Prop :=
| pp_root : prev_path g prev s s 0
| pp_step v p c W : dget prev v = Some (Some p) -> weight g p v = Some c -> prev_path g prev s p W -> prev_path g prev s v (W + c).

(** The predecessors describe shortest paths: those of s and of unreachable vertices are
    None or missing. *)
Definition shortest_paths g s (prev : list (Z * option Z)) : Prop :=
  (forall p, dget prev s <> Some (Some p)) /\
  (forall v p, dget prev v = Some (Some p) -> exists W, wwalk g s v W) /\
  (forall v d, shortest g s v d -> prev_path g prev s v d).

(** A closed walk of negative weight can be reached from s. *)
Definition negative_cycle g s : Prop := exists v W C, wwalk g s v W /\ wwalk g v v C /\ C < 0.
