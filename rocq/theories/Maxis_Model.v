(** * Model of [maxis] in rosemary/graphs/algorithms/coloring.py *)
From Coq Require Import ZArith List Bool.
From Verif Require Import Base Py Lists Dict Graph_Model Color_Model MaxCliq_Model Kor_Model Indep_Model.
Import ListNotations.
Open Scope Z_scope.

Section Options.
  (** The arguments; [verbose] only prints and is left out.  [pick], [ord] are the choices of random.choice and the
      orders of the sets in the searches for independent sets; they may differ from round to round ([done] is the list
      of the classes found before).  [ord0] and [kord] are the orders of the sets in [exact_coloring]. *)
  Context (color_limit mis_limit : Z) (use_greedy : bool).
  Context (pick : list (list Z) -> list Z -> list Z -> Z) (ord : list (list Z) -> list Z -> list Z).
  Context (ord0 : list Z -> list Z) (kord : kst -> list Z -> list Z).

  (** coloring.py:293-306: the independent set of one round. *)
  Definition maxis_set (done : list (list Z)) (reduced_graph : graph) (num_vertices : Z) : outcome (Z * list Z) :=
    if mis_limit <? num_vertices then
      if use_greedy then is_greedy (pick done) (ord done) reduced_graph else culberson (ord done) reduced_graph
    else Ret (is_branch_and_bound reduced_graph).

  (** coloring.py:292-319: the main loop, at most [fuel] rounds; [num_colors] is the number of classes.  Deleting the
      vertices of the set one after the other is [delete_vertices]. *)
  Fixpoint maxis_loop (fuel : nat) (reduced_graph : graph) (num_vertices : Z) (color_classes : list (list Z)) : outcome (graph * Z * list (list Z)) :=
    if color_limit <? num_vertices then
      match fuel with
      | O => Diverge
      | S f =>
          do '(size, independent_set) <- maxis_set color_classes reduced_graph num_vertices;
          maxis_loop f (delete_vertices reduced_graph independent_set) (num_vertices - size) (color_classes ++ [independent_set])
      end
    else Ret (reduced_graph, num_vertices, color_classes).

  (** coloring.py:329-336: the result. *)
  Definition maxis_result (classes : bool) (num_colors : Z) (color_classes : list (list Z)) : outcome (Z * colouring) :=
    if classes then Ret (num_colors, Classes color_classes)
    else Ret (num_colors, ColorMap (fold_left (fun cm '(i, cl) => fold_left (fun cm u => dset cm u i) cl cm)
                                              (combine (zrange 0 (Z.of_nat (length color_classes))) color_classes) [])).

  (** coloring.py:202-336, [maxis], with at most [fuel] rounds of the main loop. *)
  Definition maxis_upto (fuel : nat) (g : graph) (classes : bool) : outcome (Z * colouring) :=
    do '(reduced_graph, num_vertices, color_classes) <- maxis_loop fuel g (Z.of_nat (length g)) [];
    if num_vertices =? 0 then maxis_result classes (Z.of_nat (length color_classes)) color_classes
    else
      do '(num, colors) <- exact_coloring reduced_graph ord0 kord true;
      match colors with
      | Classes L => maxis_result classes (Z.of_nat (length color_classes) + num) (color_classes ++ L)
      | ColorMap _ => Raise TypeError
      end.

  (** As many rounds as there are vertices are enough if the loop ends at all (theorem C89). *)
  Definition maxis (g : graph) (classes : bool) : outcome (Z * colouring) := maxis_upto (length g) g classes.
End Options.
