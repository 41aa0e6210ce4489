(** * Model of rosemary/combinatorics/optimization/tsp.py for points in the plane

    The numbers are those of a type F, the floats that are not nan: its infinity, arithmetic and order are parameters, so
    that rounding is covered.  An arithmetic operation that raises OverflowError is not modelled. *)
From Coq Require Import ZArith List Bool.
From Verif Require Import Base Py TSP_Model.
Import ListNotations.
Open Scope Z_scope.

Section Euclid.
  Context {F : Type} (zero inf : F) (add sub : F -> F -> F) (square root : F -> F) (ltb : F -> F -> bool).

  (** distance_matrix[i][j] = v *)
  Definition set_entry (M : list (list F)) (i j : Z) (v : F) : outcome (list (list F)) :=
    do row <- pyget M i; do row <- pyset row j v; pyset M i row.

  (** tsp.py:5-19, [euclidean_distance_matrix]. *)
  Definition euclidean_distance_matrix (points : list (F * F)) : outcome (list (list F)) :=
    let num_points := Z.of_nat (length points) in
    foldM (fun M i =>
      do M <- set_entry M i i inf;
      do '(x1, y1) <- pyget points i;
      foldM (fun M j =>
        do '(x2, y2) <- pyget points j;
        let dist := root (add (square (sub x2 x1)) (square (sub y2 y1))) in
        do M <- set_entry M i j dist;
        set_entry M j i dist) (zrange 0 i) M) (zrange 0 num_points) (repeat (repeat zero (length points)) (length points)).

  Definition get_entry (M : list (list F)) (i j : Z) : outcome F := do row <- pyget M i; pyget row j.

  (** tsp.py:22-26, [cost]. *)
  Definition fcost (M : list (list F)) (path : list Z) (num_vertices : Z) : outcome F :=
    do a <- pyget path (-1);
    do b <- pyget path 0;
    do total <- get_entry M a b;
    foldM (fun total i =>
      do x <- pyget path i;
      do y <- pyget path (i + 1);
      do w <- get_entry M x y;
      Ret (add total w)) (zrange 0 (num_vertices - 1)) total.

  (** tsp.py:36-51, [backtrack].  [fuel] is the depth that remains; [best] is the list best. *)
  Fixpoint fbacktrack (M : list (list F)) (n : Z) (fuel : nat) (path : list Z) (l : Z) (last_choices : list Z) (best : F * list Z) : outcome (F * list Z) :=
    if l =? n then
      do total <- fcost M path n;
      Ret (if ltb total (fst best) then (total, path) else best)
    else
      match fuel with
      | O => Diverge
      | S fuel =>
          do choices <- choices_at n path l last_choices;
          foldM (fun best c => fbacktrack M n fuel (path ++ [c]) (l + 1) choices best) choices best
      end.

  (** tsp.py:29-54, [depth_first(points)], without a matrix. *)
  Definition depth_first_points (points : list (F * F)) : outcome (F * list Z) :=
    do M <- euclidean_distance_matrix points;
    fbacktrack M (Z.of_nat (length points)) (length points) [] 0 [] (inf, []).
End Euclid.
