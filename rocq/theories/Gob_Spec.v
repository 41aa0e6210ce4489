(** * Graphs as values *)
From Coq Require Import ZArith List Bool.
From Verif Require Import Base Dict Graph_Model Gob_Model.
Import ListNotations.
Open Scope Z_scope.

(** A dictionary G[u] kept by the program: that of the vertex u of the graph named a, as long as the vertex has not been
    deleted; then what it was at that moment. *)
Inductive view := Live (a : nat) (u : Z) | Frozen (d : list (Z * Z)).

(** The state if graphs are values: the graphs by name, the dictionaries kept. *)
Definition vgstate := (list graph * list view)%type.

(** The dictionaries kept, when the vertices l of the graph a, which is g, are deleted one after the other. *)
Definition freeze (a : nat) (g : graph) (u : Z) (v : view) : view :=
  match v with
  | Live b x => if (b =? a)%nat && (x =? u) then match dget g u with Some d => Frozen d | None => v end else v
  | Frozen _ => v
  end.
Fixpoint freeze_all (a : nat) (g : graph) (l : list Z) (vs : list view) : list view :=
  match l with [] => vs | u :: l => freeze_all a (delete_vertex g u) l (map (freeze a g u) vs) end.

(** Each operation makes a new graph, or changes the one graph it is applied to. *)
Definition vgstep (ord : list Z -> list Z) (st : vgstate) (op : gop) : outcome vgstate :=
  let '(gs, vs) := st in
  match op with
  | GNew => Ret (gs ++ [empty_graph], vs)
  | GCopy a => do g <- object_named gs a; Ret (gs ++ [g], vs)
  | GAddVertices a l => do g <- object_named gs a; Ret (upd gs a (add_vertices g l), vs)
  | GDelVertices a l => do g <- object_named gs a; Ret (upd gs a (delete_vertices g l), freeze_all a g l vs)
  | GAddEdges a l => do g <- object_named gs a; Ret (upd gs a (add_edges g l), vs)
  | GDelEdge a u v => do g <- object_named gs a; Ret (upd gs a (delete_edge g u v), vs)
  | GSet a u v w => do g <- object_named gs a; do d <- g_adj g u; Ret (upd gs a (dset g u (dset d v w)), vs)
  | GRemVertex a u => do g <- object_named gs a; Ret (gs ++ [remove_vertex g u], vs)
  | GRemVertices a l => do g <- object_named gs a; Ret (gs ++ [remove_vertices g l], vs)
  | GRemEdge a u v => do g <- object_named gs a; Ret (gs ++ [remove_edge g u v], vs)
  | GRemNbhd a u => do g <- object_named gs a; do g' <- remove_neighborhood ord g u; Ret (gs ++ [g'], vs)
  | GRemClosed a u => do g <- object_named gs a; do g' <- remove_closed_neighborhood ord g u; Ret (gs ++ [g'], vs)
  | GInduced a T => do g <- object_named gs a; do g' <- induced_subgraph ord g T; Ret (gs ++ [g'], vs)
  | GComplement a => do g <- object_named gs a; do g' <- complement g; Ret (gs ++ [g'], vs)
  | GView a u => do g <- object_named gs a; do _ <- g_adj g u; Ret (gs, vs ++ [Live a u])
  end.
Definition vgrun (ord : list Z -> list Z) (p : list gop) : outcome vgstate := foldM (vgstep ord) p ([], []).

(** What one reads in a graph object and in a dictionary kept. *)
Definition graph_of (h : gstore) (o : gobject) : graph := map (fun ur => (fst ur, gread h (snd ur))) o.
Definition seen (gs : list graph) (v : view) : list (Z * Z) :=
  match v with
  | Live a u => match dget (nth a gs empty_graph) u with Some d => d | None => [] end
  | Frozen d => d
  end.
