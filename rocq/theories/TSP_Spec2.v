(** * The rule of farthest insertion *)
From Coq Require Import ZArith List.
From Verif Require Import Base TSP_Spec.
Import ListNotations.
Open Scope Z_scope.

(** [m] is the least distance from a city of [S] to the city [v]. *)
Definition nearest (d : Z -> Z -> Z) (S : list Z) (v m : Z) : Prop :=
  (exists s, In s S /\ d s v = m) /\ (forall s, In s S -> m <= d s v).

(** The tours through some of the cities 0, ..., n-1 that arise from the city 0 by the rule: of the cities that are
    missing insert one, [f], whose distance from the tour is greatest, at a place where the tour becomes as short as
    possible.  The city 0 stays at the front ([a] is not empty). *)
Inductive farthest_first (n : Z) (d : Z -> Z -> Z) : list Z -> Prop :=
| ff_start : farthest_first n d [0]
| ff_insert a b f : farthest_first n d (a ++ b) -> a <> [] -> 0 <= f < n -> ~ In f (a ++ b) ->
    (forall v m k, 0 <= v < n -> ~ In v (a ++ b) -> nearest d (a ++ b) v m -> nearest d (a ++ b) f k -> m <= k) ->
    (forall a' b', a' ++ b' = a ++ b -> a' <> [] -> tour_cost d (a ++ f :: b) <= tour_cost d (a' ++ f :: b')) ->
    farthest_first n d (a ++ f :: b).
