(** * The rule of DSATUR *)
From Coq Require Import ZArith List.
From Verif Require Import Base Dict Count Graph_Spec Color_Spec.
Import ListNotations.
Open Scope Z_scope.

(** In the partial colouring [cm], the list of the pairs (vertex, colour) in the order of colouring: [u] has [s]
    different colours among its neighbours, and [f] neighbours without a colour. *)
Definition colour_degree g (cm : list (Z * Z)) (u s : Z) : Prop := number_of (fun c => exists v, edge g u v /\ In (v, c) cm) s.
Definition free_degree g (cm : list (Z * Z)) (u f : Z) : Prop := number_of (fun v => edge g u v /\ ~ In v (map fst cm)) f.

(** The partial colourings that arise by the rule: start with colour 0 for a vertex of greatest degree; then take, of
    the vertices without a colour, one with most colours among its neighbours, and of these one with most neighbours
    without a colour, and give it the least colour that none of its neighbours has. *)
Inductive dsatur_coloured g : list (Z * Z) -> Prop :=
| dc_start u : vertex g u -> (forall v a b, vertex g v -> degree_of g v a -> degree_of g u b -> a <= b) -> dsatur_coloured g [(u, 0)]
| dc_next cm u c : dsatur_coloured g cm -> vertex g u -> ~ In u (map fst cm) ->
    (forall v s f s' f', vertex g v -> ~ In v (map fst cm) -> colour_degree g cm u s -> free_degree g cm u f ->
       colour_degree g cm v s' -> free_degree g cm v f' -> s' < s \/ (s' = s /\ f' <= f)) ->
    0 <= c -> (forall v, edge g u v -> ~ In (v, c) cm) -> (forall j, 0 <= j < c -> exists v, edge g u v /\ In (v, j) cm) ->
    dsatur_coloured g (cm ++ [(u, c)]).
