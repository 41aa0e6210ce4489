(** * Colouring by removing independent sets *)
From Coq Require Import ZArith List Permutation.
From Verif Require Import Base Dict Graph_Spec Color_Spec.
Import ListNotations.
Open Scope Z_scope.

(** What is left of [g] after the vertices of the classes of [L] are removed is [h]; the classes are independent
    and not empty, and no vertex is in two of them. *)
Record left_over (g : list (Z * list (Z * Z))) (L : list (list Z)) (h : list (Z * list (Z * Z))) : Prop := {
  lo_und : undirected h;
  lo_free : loop_free h;
  lo_perm : Permutation (concat L ++ map fst h) (map fst g);
  lo_weight : forall x y, vertex h x -> vertex h y -> weight h x y = weight g x y;
  lo_class : forall c, In c L -> c <> [] /\ independent g c }.

