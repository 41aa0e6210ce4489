(** * Model of rosemary/graphs/algorithms/independent_sets.py *)
From Coq Require Import ZArith List Bool.
From Verif Require Import Base Py Dict Lists Gen Graph_Model Trav_Model Cliq_Model Color_Model MaxCliq_Model.
Import ListNotations.
Open Scope Z_scope.

(** independent_sets.py:43-61, [backtrack]; [rest] is vertices[idx:], [best] the pair
    [best[0], best[1]].  The inner [loop] runs through [vertices] from the index [last_i]; the
    test of the while loop is repeated for the vertices that are skipped, which changes nothing.
    [fuel] exceeds the number of allowed vertices. *)
Fixpoint ibacktrack (g : graph) (fuel : nat) (allowed : list Z) (size : Z) (rest used : list Z) (best : Z * list Z) : Z * list Z :=
  match fuel with
  | O => best
  | S f =>
      (fix loop (rest : list Z) (allowed : list Z) (best : Z * list Z) : Z * list Z :=
         match rest with
         | [] => best
         | u :: rest' =>
             match allowed with
             | [] => best
             | _ =>
                 if size + Z.of_nat (length allowed) <=? fst best then best
                 else if mem u allowed then
                   let allowed := discard allowed u in
                   loop rest' allowed (ibacktrack g f (diff allowed (nbr g u)) (size + 1) rest (used ++ [u]) best)
                 else loop rest' allowed best
             end
         end) rest allowed (if fst best <? size then (size, used) else best)
  end.

(** independent_sets.py:31: sorted(graph.vertices(), key=graph.degree, reverse=True); [sorted] is stable,
    also with reverse=True. *)
Definition decreasing_degree (g : graph) : list Z := sort_by (fun u => - degree0 g u) (vertices g).

(** independent_sets.py:10-65, [branch_and_bound]. *)
Definition is_branch_and_bound (g : graph) : Z * list Z :=
  let vs := decreasing_degree g in ibacktrack g (S (length vs)) vs 0 vs [] (0, []).

(** independent_sets.py:96-103: the least degree of the graph. *)
Definition least_degree (g : graph) : Z :=
  fold_left (fun m u => if degree0 g u <? m then degree0 g u else m) (dkeys g) (Z.of_nat (length (dkeys g))).

(** independent_sets.py:94-115; [pick s l] is the element of l that random.choice returns when s
    was chosen before, [ord] the order in which a set is iterated.  [fuel] is the number of vertices. *)
Fixpoint greedy_loop (pick : list Z -> list Z -> Z) (ord : list Z -> list Z) (fuel : nat) (g : graph) (s : list Z) : outcome (list Z) :=
  match fuel with
  | O => Ret s
  | S f =>
      match ord (dkeys g) with
      | [] => Ret s
      | vs =>
          match filter (fun u => degree0 g u =? least_degree g) vs with
          | [] => Raise IndexError
          | l =>
              let v := pick s l in
              do nb <- neighbors g v;
              greedy_loop pick ord f (delete_vertices (delete_vertex g v) (ord nb)) (s ++ [v])
          end
      end
  end.

(** independent_sets.py:68-119, [greedy]. *)
Definition is_greedy (pick : list Z -> list Z -> Z) (ord : list Z -> list Z) (g : graph) : outcome (Z * list Z) :=
  do s <- greedy_loop pick ord (length g) g [];
  Ret (Z.of_nat (length s), zsort s).

(** independent_sets.py:141-153, [cutoff]. *)
Definition cutoff (n : nat) : nat :=
  if (500 <=? n)%nat then 8%nat else if (200 <=? n)%nat then 6%nat else if (10 <=? n)%nat then 3%nat else 10%nat.

(** independent_sets.py:165: the first and the last element change places. *)
Definition swap_ends (l : list Z) : list Z :=
  match l with
  | [] => []
  | x :: r => match rev r with [] => [x] | y :: m => y :: rev m ++ [x] end
  end.

(** independent_sets.py:155-182, [indset]; [degree] is the dictionary of 184-186 (the degrees in the
    whole graph).  [fuel] exceeds the number of vertices. *)
Fixpoint indset (ord : list Z -> list Z) (degree : list (Z * Z)) (fuel : nat) (g : graph) : outcome (Z * Z * list Z) :=
  match fuel with
  | O => Diverge
  | S f =>
      match vertices_by_degree g with
      | [] => Ret (0, 0, [])
      | vs =>
          foldM (fun st v =>
            let '(max_size, max_deg, max_set) := st in
            do deg <- dgetM degree v;
            do h <- remove_closed_neighborhood ord g v;
            do '(new_size, new_deg, new_set) <- indset ord degree f h;
            let new_deg := new_deg + deg in
            Ret (if max_deg <? new_deg then (new_size + 1, new_deg, new_set ++ [v]) else (max_size, max_deg, max_set)))
          (firstn (cutoff (length vs)) (swap_ends vs)) (0, 0, [])
      end
  end.

(** independent_sets.py:122-189, [culberson]. *)
Definition culberson (ord : list Z -> list Z) (g : graph) : outcome (Z * list Z) :=
  do '(size, _, mis) <- indset ord (map (fun u => (u, degree0 g u)) (dkeys g)) (S (length g)) g;
  Ret (size, mis).

(** independent_sets.py:192-217, [maximum_independent_set]: cliques.maximum_clique (cliques.py:583-618) uses
    [ostergard] by default. *)
Definition maximum_independent_set (g : graph) : outcome (Z * list Z) :=
  do h <- complement g; ostergard h.

(** independent_sets.py:225-246, [maximal_independent_sets]: cliques.maximal_cliques (cliques.py:197-234) uses
    [tomita] by default. *)
Definition maximal_independent_sets (g : graph) (ord : list Z -> list Z -> list Z) : outcome (nat -> list (list Z) * gstatus) :=
  do h <- complement g; Ret (tomita h ord).
