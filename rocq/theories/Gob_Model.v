(** * Model of Graph objects (rosemary/graphs/graphs.py) in a store

    In Graph_Model a graph is a value.  Here the dictionaries of neighbours are in a store, named by their positions there; a
    graph object is its dictionary [graph_dict], from the vertices to these positions.  So that two graphs, or a graph and a
    dictionary G[u] kept by the program, may share a dictionary. *)
From Coq Require Import ZArith List Bool.
From Verif Require Import Base Py Lists Dict Graph_Model.
Import ListNotations.
Open Scope Z_scope.

Notation row := (list (Z * Z)).
Notation gstore := (list (list (Z * Z))).
Notation gobject := (list (Z * Z)).

(** The dictionary at a position; a new one; a changed one. *)
Definition gread (h : gstore) (r : Z) : row := nth (Z.to_nat r) h [].
Definition gnew (h : gstore) (d : row) : gstore * Z := (h ++ [d], Z.of_nat (length h)).
Definition gwrite (h : gstore) (r : Z) (d : row) : gstore := upd h (Z.to_nat r) d.

(** graphs.py:31-35, [__iter__], and 150-166, [vertex_set]: the keys, the latter in a new set. *)
Definition go_iter (o : gobject) : list Z := dkeys o.

(** graphs.py:25-29, [__getitem__]: the dictionary itself, not a copy. *)
Definition go_getitem (o : gobject) (u : Z) : outcome Z := dgetM o u.

(** graphs.py:37-43, [copy]: deepcopy makes a new dictionary for each vertex. *)
Definition go_copy (h : gstore) (o : gobject) : gstore * gobject :=
  fold_left (fun '(h', o') '(u, r) => let '(h', r') := gnew h' (gread h' r) in (h', o' ++ [(u, r')])) o (h, []).

(** graphs.py:479-498 and 500-521, [add_vertex] and [add_vertices]. *)
Definition go_add_vertex (ho : gstore * gobject) (u : Z) : gstore * gobject :=
  let '(h, o) := ho in if dmem o u then (h, o) else let '(h, r) := gnew h [] in (h, dset o u r).
Definition go_add_vertices (ho : gstore * gobject) (l : list Z) : gstore * gobject := fold_left go_add_vertex l ho.

(** graphs.py:547-550, the loop of [delete_vertex]; 523-550 and 552-578, [delete_vertex] and [delete_vertices]. *)
Definition go_forget (h : gstore) (o : gobject) (u : Z) : gstore :=
  fold_left (fun h vr => gwrite h (snd vr) (ddel (gread h (snd vr)) u)) o h.
Definition go_delete_vertex (ho : gstore * gobject) (u : Z) : gstore * gobject :=
  let '(h, o) := ho in if dmem o u then let o := ddel o u in (go_forget h o u, o) else (h, o).
Definition go_delete_vertices (ho : gstore * gobject) (l : list Z) : gstore * gobject := fold_left go_delete_vertex l ho.

(** graphs.py:668-672, 635-672 and 674-692, [add_edge] and [add_edges]. *)
Definition go_add_arc (ho : gstore * gobject) (a b w : Z) : gstore * gobject :=
  let '(h, o) := ho in
  match dget o a with
  | None => let '(h, r) := gnew h [(b, w)] in (h, dset o a r)
  | Some r => (gwrite h r (dset (gread h r) b w), o)
  end.
Definition go_add_edge (ho : gstore * gobject) (u v w : Z) : gstore * gobject := go_add_arc (go_add_arc ho u v w) v u w.
Definition go_add_edges (ho : gstore * gobject) (l : list (Z * Z * Z)) : gstore * gobject :=
  fold_left (fun ho e => let '(u, v, w) := e in go_add_edge ho u v w) l ho.

(** graphs.py:727-733, 694-733, [delete_edge]. *)
Definition go_del_arc (ho : gstore * gobject) (u v : Z) : gstore * gobject :=
  let '(h, o) := ho in
  match dget o u with None => (h, o) | Some r => (gwrite h r (ddel (gread h r) v), o) end.
Definition go_delete_edge (ho : gstore * gobject) (u v : Z) : gstore * gobject := go_del_arc (go_del_arc ho v u) u v.

(** G[u][v] = w. *)
Definition go_set (ho : gstore * gobject) (u v w : Z) : outcome (gstore * gobject) :=
  let '(h, o) := ho in do r <- go_getitem o u; Ret (gwrite h r (dset (gread h r) v w), o).

(** graphs.py:580-633, [remove_vertex] and [remove_vertices]; 735-778, [remove_edge]. *)
Definition go_remove_vertex (h : gstore) (o : gobject) (u : Z) : gstore * gobject := go_delete_vertex (go_copy h o) u.
Definition go_remove_vertices (h : gstore) (o : gobject) (l : list Z) : gstore * gobject := go_delete_vertices (go_copy h o) l.
Definition go_remove_edge (h : gstore) (o : gobject) (u v : Z) : gstore * gobject := go_del_arc (go_del_arc (go_copy h o) v u) u v.

(** graphs.py:426-473, [neighbors] and [closed_neighborhood]: new sets.  780-834, [remove_neighborhood] and
    [remove_closed_neighborhood]; [ord] is the iteration order of the sets. *)
Definition go_neighbors (h : gstore) (o : gobject) (u : Z) : outcome (list Z) := do r <- go_getitem o u; Ret (dkeys (gread h r)).
Definition go_remove_neighborhood (ord : list Z -> list Z) (h : gstore) (o : gobject) (u : Z) : outcome (gstore * gobject) :=
  do a <- go_neighbors h o u; Ret (go_remove_vertices h o (ord a)).
Definition go_remove_closed_neighborhood (ord : list Z -> list Z) (h : gstore) (o : gobject) (u : Z) : outcome (gstore * gobject) :=
  do a <- go_neighbors h o u; Ret (go_remove_vertices h o (ord (if existsb (Z.eqb u) a then a else a ++ [u]))).

(** graphs.py:941-977, [induced_subgraph]; [S] is [set(vertex_list)] in its iteration order, [o] is self. *)
Definition go_induced_subgraph (ord : list Z -> list Z) (h : gstore) (o : gobject) (S : list Z) : outcome (gstore * gobject) :=
  foldM (fun '(h, new) u =>
    do r <- go_getitem o u;
    foldM (fun '(h, new) v => do r <- go_getitem o u; do w <- dgetM (gread h r) v; Ret (go_add_edge (h, new) u v w))
      (ord (filter (fun v => dmem (gread h r) v) S)) (h, new)) S
    (fold_left (fun '(h, new) v => let '(h, r) := gnew h [] in (h, dset new v r)) S (h, [])).

(** graphs.py:979-1015, [complement]. *)
Definition go_complement_row (o : gobject) (ho : gstore * gobject) (u : Z) (l : list Z) : outcome (gstore * gobject) :=
  foldM (fun '(h, new) v => do r <- go_getitem o v; Ret (if dmem (gread h r) u then (h, new) else go_add_edge (h, new) u v 1)) l ho.
Fixpoint go_complement_rows (o : gobject) (ho : gstore * gobject) (before vs : list Z) : outcome (gstore * gobject) :=
  match vs with
  | [] => Ret ho
  | u :: vs' => do ho <- go_complement_row o ho u before; go_complement_rows o ho (before ++ [u]) vs'
  end.
Definition go_complement (h : gstore) (o : gobject) : outcome (gstore * gobject) :=
  let vs := zsort (go_iter o) in
  go_complement_rows o (fold_left go_add_vertex vs (h, [])) [] vs.

(** Programs: an operation that gives a graph gives it a new name, the next number; [GView a u] keeps the dictionary G[u], with
    a name of its own. *)
Inductive gop :=
| GNew | GCopy (a : nat) | GAddVertices (a : nat) (l : list Z) | GDelVertices (a : nat) (l : list Z)
| GAddEdges (a : nat) (l : list (Z * Z * Z)) | GDelEdge (a : nat) (u v : Z) | GSet (a : nat) (u v w : Z)
| GRemVertex (a : nat) (u : Z) | GRemVertices (a : nat) (l : list Z) | GRemEdge (a : nat) (u v : Z) | GRemNbhd (a : nat) (u : Z) | GRemClosed (a : nat) (u : Z)
| GInduced (a : nat) (S : list Z) | GComplement (a : nat) | GView (a : nat) (u : Z).

(** The state: the store, the graphs by name, the dictionaries kept. *)
Definition gstate := (gstore * list gobject * list Z)%type.
Definition object_named {A} (l : list A) (a : nat) : outcome A := match nth_error l a with Some x => Ret x | None => Raise NameError end.

Definition gadd (os : list gobject) (vs : list Z) (ho : gstore * gobject) : gstate := (fst ho, os ++ [snd ho], vs).
Definition gput (os : list gobject) (vs : list Z) (a : nat) (ho : gstore * gobject) : gstate := (fst ho, upd os a (snd ho), vs).

Definition gstep (ord : list Z -> list Z) (st : gstate) (op : gop) : outcome gstate :=
  let '(h, os, vs) := st in
  match op with
  | GNew => Ret (gadd os vs (h, []))
  | GCopy a => do o <- object_named os a; Ret (gadd os vs (go_copy h o))
  | GAddVertices a l => do o <- object_named os a; Ret (gput os vs a (go_add_vertices (h, o) l))
  | GDelVertices a l => do o <- object_named os a; Ret (gput os vs a (go_delete_vertices (h, o) l))
  | GAddEdges a l => do o <- object_named os a; Ret (gput os vs a (go_add_edges (h, o) l))
  | GDelEdge a u v => do o <- object_named os a; Ret (gput os vs a (go_delete_edge (h, o) u v))
  | GSet a u v w => do o <- object_named os a; do ho <- go_set (h, o) u v w; Ret (gput os vs a ho)
  | GRemVertex a u => do o <- object_named os a; Ret (gadd os vs (go_remove_vertex h o u))
  | GRemVertices a l => do o <- object_named os a; Ret (gadd os vs (go_remove_vertices h o l))
  | GRemEdge a u v => do o <- object_named os a; Ret (gadd os vs (go_remove_edge h o u v))
  | GRemNbhd a u => do o <- object_named os a; do ho <- go_remove_neighborhood ord h o u; Ret (gadd os vs ho)
  | GRemClosed a u => do o <- object_named os a; do ho <- go_remove_closed_neighborhood ord h o u; Ret (gadd os vs ho)
  | GInduced a T => do o <- object_named os a; do ho <- go_induced_subgraph ord h o T; Ret (gadd os vs ho)
  | GComplement a => do o <- object_named os a; do ho <- go_complement h o; Ret (gadd os vs ho)
  | GView a u => do o <- object_named os a; do r <- go_getitem o u; Ret (h, os, vs ++ [r])
  end.
Definition grun (ord : list Z -> list Z) (p : list gop) : outcome gstate := foldM (gstep ord) p ([], [], []).
