(** * Undirected weighted graphs as dictionaries of dictionaries *)
From Coq Require Import ZArith List.
From Verif Require Import Base Dict.
Import ListNotations.
Open Scope Z_scope.

(** u is a vertex. *)
Definition vertex (g : list (Z * list (Z * Z))) (u : Z) : Prop := In u (map fst g).

(** The weight [graph[u][v]], if there is one. *)
Definition weight (g : list (Z * list (Z * Z))) (u v : Z) : option Z :=
  match dget g u with Some a => dget a v | None => None end.

Definition edge (g : list (Z * list (Z * Z))) (u v : Z) : Prop := exists w, weight g u v = Some w.

(** The dictionaries have distinct keys, neighbours are vertices, and the weights are symmetric. *)
Definition undirected (g : list (Z * list (Z * Z))) : Prop :=
  NoDup (map fst g) /\ (forall u a, In (u, a) g -> NoDup (map fst a)) /\
  (forall u v, edge g u v -> vertex g v) /\ (forall u v, weight g u v = weight g v u).

Definition loop_free (g : list (Z * list (Z * Z))) : Prop := forall u, weight g u u = None.

(** The operations that change a graph, and their effect on the vertices and weights. *)
Inductive gop :=
| OpAddVertex (u : Z) | OpAddVertices (l : list Z) | OpDeleteVertex (u : Z) | OpDeleteVertices (l : list Z)
| OpAddEdge (u v w : Z) | OpAddEdges (l : list (Z * Z * Z)) | OpDeleteEdge (u v : Z).

Definition same_pair (u v x y : Z) : Prop := (x = u /\ y = v) \/ (x = v /\ y = u).

(** [effect op (V, W) (V', W')]: what the documentation says. *)
Definition effect (op : gop) (V : Z -> Prop) (W : Z -> Z -> option Z) (V' : Z -> Prop) (W' : Z -> Z -> option Z) : Prop :=
  match op with
  | OpAddVertex u => (forall x, V' x <-> V x \/ x = u) /\ (forall x y, W' x y = W x y)
  | OpAddVertices l => (forall x, V' x <-> V x \/ In x l) /\ (forall x y, W' x y = W x y)
  | OpDeleteVertex u => (forall x, V' x <-> V x /\ x <> u) /\
      (forall x y, (x = u \/ y = u -> W' x y = None) /\ (x <> u -> y <> u -> W' x y = W x y))
  | OpDeleteVertices l => (forall x, V' x <-> V x /\ ~ In x l) /\
      (forall x y, (In x l \/ In y l -> W' x y = None) /\ (~ In x l -> ~ In y l -> W' x y = W x y))
  | OpAddEdge u v w => (forall x, V' x <-> V x \/ x = u \/ x = v) /\
      (forall x y, (same_pair u v x y -> W' x y = Some w) /\ (~ same_pair u v x y -> W' x y = W x y))
  | OpAddEdges l => (forall x, V' x <-> V x \/ exists u v w, In (u, v, w) l /\ (x = u \/ x = v)) /\
      (** the last edge of the list between x and y decides *)
      (forall x y, (forall l1 u v w l2, l = l1 ++ (u, v, w) :: l2 -> same_pair u v x y ->
                      (forall u' v' w', In (u', v', w') l2 -> ~ same_pair u' v' x y) -> W' x y = Some w) /\
                   ((forall u v w, In (u, v, w) l -> ~ same_pair u v x y) -> W' x y = W x y))
  | OpDeleteEdge u v => (forall x, V' x <-> V x) /\
      (forall x y, (same_pair u v x y -> W' x y = None) /\ (~ same_pair u v x y -> W' x y = W x y))
  end.
