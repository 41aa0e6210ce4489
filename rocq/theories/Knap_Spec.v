(** * What a knapsack solution is *)
From Coq Require Import ZArith List.
Import ListNotations.
Open Scope Z_scope.

Definition total_value (S : list (Z * Z)) : Z := fold_right Z.add 0 (map fst S).
Definition total_weight (S : list (Z * Z)) : Z := fold_right Z.add 0 (map snd S).

(** [selection S items]: S keeps some of the items, in order. *)
Inductive selection : list (Z * Z) -> list (Z * Z) -> Prop :=
| sel_nil : selection [] []
| sel_take x S l : selection S l -> selection (x :: S) (x :: l)
| sel_skip x S l : selection S l -> selection S (x :: l).

(** S is a best selection. *)
Definition optimal (items : list (Z * Z)) (capacity : Z) (S : list (Z * Z)) : Prop :=
  selection S items /\ total_weight S <= capacity /\
  forall S', selection S' items -> total_weight S' <= capacity -> total_value S' <= total_value S.

(** The items marked by a 0/1 mask. *)
Fixpoint masked (X : list Z) (items : list (Z * Z)) : list (Z * Z) :=
  match X, items with
  | x :: X', it :: items' => if x =? 0 then masked X' items' else it :: masked X' items'
  | _, _ => []
  end.
