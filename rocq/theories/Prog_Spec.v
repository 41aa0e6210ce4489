(** * Specification: arithmetic progressions in a list of integers *)
From Coq Require Import ZArith List.
From Verif Require Import Base.
Import ListNotations.
Open Scope Z_scope.

(** The progression [a, a + d, ..., a + (m-1) d]. *)
Definition progression (a d m : Z) : list Z := map (fun k => a + d * k) (zrange 0 m).

(** [p] is an increasing arithmetic progression of [m >= 2] elements of [A]. *)
Definition ap_in (A : list Z) (m : Z) (p : list Z) : Prop :=
  2 <= m /\ exists a d, 0 < d /\ p = progression a d m /\ forall x, In x p -> In x A.

(** [p] is among the longest progressions of [A]. *)
Definition longest_in (A : list Z) (p : list Z) : Prop :=
  exists m, ap_in A m p /\ forall m' p', ap_in A m' p' -> m' <= m.

(** Lexicographic order, as on Python tuples. *)
Fixpoint tuple_le (p q : list Z) : Prop :=
  match p, q with
  | [], _ => True
  | _ :: _, [] => False
  | x :: p, y :: q => x < y \/ x = y /\ tuple_le p q
  end.
