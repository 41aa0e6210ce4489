(** * Specification of disjoint sets *)
From Coq Require Import ZArith List Bool.
From Verif Require Import Base UF_Model.
Import ListNotations.
Open Scope Z_scope.

(** The least equivalence relation containing the pairs joined by the history. *)
Inductive conn (ops : list uop) : Z -> Z -> Prop :=
| conn_union x y : In (UUnion x y) ops -> conn ops x y
| conn_refl x : conn ops x x
| conn_sym x y : conn ops x y -> conn ops y x
| conn_trans x y z : conn ops x y -> conn ops y z -> conn ops x z.

(** [cls x] is the representative of x.  A union makes the representative of
    [y] that of the class of [x] as well. *)
Definition join (cls : Z -> Z) (x y : Z) : Z -> Z :=
  fun z => if cls z =? cls x then cls y else cls z.

(** The answers the finds of a history must give. *)
Fixpoint uf_answers (cls : Z -> Z) (ops : list uop) : list Z :=
  match ops with
  | [] => []
  | UFind x :: ops' => cls x :: uf_answers cls ops'
  | UUnion x y :: ops' => uf_answers (join cls x y) ops'
  end.

(** How a client may call the structure: on its elements, and [union] on
    elements that are representatives or were passed to [find] since the last
    union ([found]). *)
Fixpoint uf_allowed (K : list Z) (cls : Z -> Z) (found : list Z) (ops : list uop) : Prop :=
  match ops with
  | [] => True
  | UFind x :: ops' => In x K /\ uf_allowed K cls (x :: found) ops'
  | UUnion x y :: ops' =>
      In x K /\ In y K /\ (cls x = x \/ In x found) /\ (cls y = y \/ In y found) /\
      uf_allowed K (join cls x y) [] ops'
  end.

(** Named sets: [cls x] is the name of the set of x.  [union(u, v, w)] gives
    the name w to the union of the sets named u and v. *)
Definition njoin (cls : Z -> Z) (u v w : Z) : Z -> Z :=
  fun z => if (cls z =? u) || (cls z =? v) then w else cls z.

Fixpoint nuf_answers (cls : Z -> Z) (ops : list nop) : list Z :=
  match ops with
  | [] => []
  | NFind x :: ops' => cls x :: nuf_answers cls ops'
  | NUnion u v w :: ops' => nuf_answers (njoin cls u v w) ops'
  end.

(** [n] names some set. *)
Definition is_name (K : list Z) (cls : Z -> Z) (n : Z) : Prop := exists x, In x K /\ cls x = n.

(** [find] is called on elements; [union(u, v, w)] on two different names, with
    a new name that no other set carries. *)
Fixpoint nuf_allowed (K : list Z) (cls : Z -> Z) (ops : list nop) : Prop :=
  match ops with
  | [] => True
  | NFind x :: ops' => In x K /\ nuf_allowed K cls ops'
  | NUnion u v w :: ops' =>
      u <> v /\ is_name K cls u /\ is_name K cls v /\ (w = u \/ w = v \/ ~ is_name K cls w) /\
      nuf_allowed K (njoin cls u v w) ops'
  end.

Definition is_ret {A} (x : outcome A) : bool := match x with Ret _ => true | _ => false end.
