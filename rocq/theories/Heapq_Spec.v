(** * What Python's module heapq promises *)
From Coq Require Import ZArith List Permutation.
Import ListNotations.

(** A heap is a list whose layout is up to the module: [push], [pop] (the entry taken out and the heap left) and
    [heapify]. *)
Record heapq (A : Type) := Heapq { push : list A -> A -> list A; pop : list A -> A * list A; heapify : list A -> list A }.
Arguments Heapq {A}. Arguments push {A}. Arguments pop {A}. Arguments heapify {A}.

(** [less x y]: Python says x < y. [valid] is the invariant of the layout. [pop] takes out an entry such that none left is
    smaller. *)
Definition heap_ok {A} (less : A -> A -> Prop) (valid : list A -> Prop) (Q : heapq A) : Prop :=
  (forall x, valid [x]) /\
  (forall h x, valid h -> valid (push Q h x) /\ Permutation (push Q h x) (x :: h)) /\
  (forall h m r, valid h -> h <> [] -> pop Q h = (m, r) -> valid r /\ Permutation h (m :: r) /\ forall y, In y r -> ~ less y m) /\
  (forall l, valid (heapify Q l) /\ Permutation (heapify Q l) l).

(** Python's order of tuples and lists: the first difference decides, a proper prefix is smaller. *)
Fixpoint lex (x y : list Z) : Prop :=
  match x, y with
  | _, [] => False
  | [], _ :: _ => True
  | a :: x', b :: y' => (a < b)%Z \/ (a = b /\ lex x' y')
  end.
Definition less2 (x y : Z * Z) : Prop := lex [fst x; snd x] [fst y; snd y].
Definition less3 (x y : Z * Z * Z) : Prop := lex [fst (fst x); snd (fst x); snd x] [fst (fst y); snd (fst y); snd y].
(** (number, number, list) *)
Definition less_path (x y : Z * Z * list Z) : Prop := lex (fst (fst x) :: snd (fst x) :: snd x) (fst (fst y) :: snd (fst y) :: snd y).
