(** * Exact covers by families of sets *)
From Coq Require Import ZArith List Permutation.
Import ListNotations.
Open Scope Z_scope.

(** The set at position [i] of the family. *)
Definition set_at (sets : list (list Z)) (i : Z) : list Z := nth (Z.to_nat i) sets [].

(** [I] lists, without repetition, positions of nonempty sets of the family such that each element of [target]
    lies in exactly one of them and they have no other elements. *)
Definition cover_of (sets : list (list Z)) (target : list Z) (I : list Z) : Prop :=
  NoDup I /\
  (forall i, In i I -> 0 <= i < Z.of_nat (length sets) /\ set_at sets i <> [] /\ incl (set_at sets i) target) /\
  (forall j, In j target -> exists! i, In i I /\ In j (set_at sets i)).

(** [L] contains each member of the class [P] of finite sets of positions, listed in some order, exactly once. *)
Definition each_once (P : list Z -> Prop) (L : list (list Z)) : Prop :=
  (forall I, In I L -> P I) /\
  (forall I, P I -> exists J, In J L /\ Permutation I J) /\
  ForallOrdPairs (fun I J => ~ Permutation I J) L.
