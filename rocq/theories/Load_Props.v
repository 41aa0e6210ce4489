(** * Graphs read from files: the properties *)
From Coq Require Import Ascii String ZArith List Bool Lia.
From Verif Require Import Base Py Dict Graph_Model Graph_Spec Graph_Proofs Graph_Proofs2 Repr_Spec Repr_Proofs Load_Spec Load_Model Load_Proofs Load_Proofs2.
Import ListNotations.
Open Scope Z_scope.

(** C97: every file has lines, and only one way of being cut into lines (whether its lines end with LF, CR LF or CR). *)
Theorem C97_lines t : exists ls, file_lines t ls /\ forall ls', file_lines t ls' -> ls' = ls.
Proof. exists (lines t). split; [apply file_lines_iff; reflexivity|]. intros ls' H. apply file_lines_iff in H. congruence. Qed.
Print Assumptions C97_lines.

(** C97: load_graph gives the graph of the pairs in the file if every line is a pair "u v", and raises ValueError otherwise. *)
Theorem C97_load_graph t ls : file_lines t ls ->
  (forall es, Forall2 pair_line ls es -> exists g, load_graph t = Ret g /\ undirected g /\ graph_of (vertex g) (weight g) es) /\
  (forall l, In l ls -> (forall uv, ~ pair_line l uv) -> load_graph t = Raise ValueError).
Proof.
  intros H. apply file_lines_iff in H. subst ls. unfold load_graph. destruct empty_graph_of as (U & G). split.
  - intros es F. exact (load_ok (lines t) es F empty_graph [] U G).
  - intros l Hl N. apply (load_error l (lines t) Hl N).
Qed.
Print Assumptions C97_load_graph.

(** C97: load_dimacs_graph gives the graph of the lines that begin with e; the others are ignored. *)
Theorem C97_load_dimacs t ls : file_lines t ls ->
  (forall es, dimacs_edges ls es -> exists g, load_dimacs_graph t = Ret g /\ undirected g /\ graph_of (vertex g) (weight g) es) /\
  (forall l, In l ls -> ~ comment_line l -> (forall uv, ~ edge_line l uv) -> load_dimacs_graph t = Raise ValueError).
Proof.
  intros H. apply file_lines_iff in H. subst ls. unfold load_dimacs_graph. destruct empty_graph_of as (U & G). split.
  - intros es F. exact (dimacs_ok (lines t) es F empty_graph [] U G).
  - intros l Hl C N. apply (dimacs_error l (lines t) Hl C N).
Qed.
Print Assumptions C97_load_dimacs.

(** C97: the numerals: what the lines mean is determined. *)
Theorem C97_numerals t : (forall z, int_of t = Ret z <-> numeral t z) /\ ((forall z, ~ numeral t z) -> int_of t = Raise ValueError) /\
  (forall z z', numeral t z -> numeral t z' -> z = z').
Proof. split; [intros z; apply int_of_iff|]. split; [apply int_of_error|]. intros z z'. apply numeral_fun. Qed.
Print Assumptions C97_numerals.

Theorem C97_int_str z : int_of (str z) = Ret z.
Proof. apply int_of_iff. rewrite <- (app_nil_r (str z)). apply str_numeral. constructor. Qed.
Print Assumptions C97_int_str.

(** C97: writing the edges of a graph to a file and loading the file gives the graph back, if its weights are 1 and no vertex is isolated. *)
Theorem C97_round_trip g : undirected g -> (forall x y w, weight g x y = Some w -> w = 1) -> (forall x, vertex g x -> exists y, edge g x y) ->
  exists g1 g2, load_graph (pairs_file (edge_set g)) = Ret g1 /\ load_dimacs_graph (dimacs_file (edge_set g)) = Ret g2 /\
    undirected g1 /\ undirected g2 /\ (forall x, (vertex g1 x <-> vertex g x) /\ (vertex g2 x <-> vertex g x)) /\
    (forall x y, weight g1 x y = weight g x y /\ weight g2 x y = weight g x y).
Proof.
  intros U H1 HI. pose proof (edges_graph_of g U H1 HI) as G.
  destruct (proj1 (C97_load_graph _ _ (pairs_file_lines (edge_set g))) _ (pairs_file_pairs _)) as (g1 & E1 & U1 & G1).
  destruct (proj1 (C97_load_dimacs _ _ (dimacs_file_lines (edge_set g))) _ (dimacs_file_edges _)) as (g2 & E2 & U2 & G2).
  exists g1, g2. destruct (graph_of_unique _ _ _ _ _ G1 G) as (A1 & B1). destruct (graph_of_unique _ _ _ _ _ G2 G) as (A2 & B2).
  repeat split; auto; try apply A1; try apply A2; try apply U1; try apply U2.
Qed.
Print Assumptions C97_round_trip.

(** C97: "loads the DIMACS graph" is false when a vertex has no edge: the problem line "p edge 3 1" declares three vertices, and the graph has two. *)
Theorem C97_dimacs_refuted : exists g, load_dimacs_graph (txt "p edge 3 1" ++ [LF] ++ txt "e 1 2" ++ [LF]) = Ret g /\ num_vertices g = 2.
Proof. eexists. split; [vm_compute; reflexivity|reflexivity]. Qed.
Print Assumptions C97_dimacs_refuted.

(** C97: for every graph the round trip keeps exactly the edges and their ends; the weights become 1. *)
Theorem C97_round_trip_any g : undirected g ->
  exists g1 g2, load_graph (pairs_file (edge_set g)) = Ret g1 /\ load_dimacs_graph (dimacs_file (edge_set g)) = Ret g2 /\ undirected g1 /\ undirected g2 /\
    (forall x, (vertex g1 x <-> exists y, edge g x y) /\ (vertex g2 x <-> exists y, edge g x y)) /\
    (forall x y, (edge g1 x y <-> edge g x y) /\ (edge g2 x y <-> edge g x y)) /\
    (forall x y w, weight g1 x y = Some w \/ weight g2 x y = Some w -> w = 1).
Proof.
  intros U. pose proof U as (_ & _ & _ & HS). apply undirected_wfd in U as Hw.
  assert (HE : forall x y, In (x, y) (edge_set g) \/ In (y, x) (edge_set g) <-> edge g x y).
  { intros x y. rewrite !edge_set_In by exact Hw. unfold edge. rewrite (HS y x). split; [tauto|]. intros H. destruct (Z.le_ge_cases x y); tauto. }
  assert (K : forall V W, graph_of V W (edge_set g) -> (forall x, V x <-> exists y, edge g x y) /\ (forall x y, (exists w, W x y = Some w) <-> edge g x y) /\ forall x y w, W x y = Some w -> w = 1).
  { intros V W (A & B & C). split; [intros x; rewrite A; split; intros (y & H); exists y; apply HE, H|]. split; [|exact C]. intros x y. rewrite <- HE, <- B. split; [intros (w & E); rewrite E; rewrite (C _ _ _ E); reflexivity|intros E; exists 1; exact E]. }
  destruct (proj1 (C97_load_graph _ _ (pairs_file_lines (edge_set g))) _ (pairs_file_pairs _)) as (g1 & E1 & U1 & G1).
  destruct (proj1 (C97_load_dimacs _ _ (dimacs_file_lines (edge_set g))) _ (dimacs_file_edges _)) as (g2 & E2 & U2 & G2).
  destruct (K _ _ G1) as (A1 & B1 & C1). destruct (K _ _ G2) as (A2 & B2 & C2). exists g1, g2. split; [exact E1|]. split; [exact E2|]. split; [exact U1|]. split; [exact U2|].
  split; [intros x; split; [apply A1|apply A2]|]. split; [intros x y; split; [apply B1|apply B2]|]. intros x y w [H|H]; [apply (C1 _ _ _ H)|apply (C2 _ _ _ H)].
Qed.
Print Assumptions C97_round_trip_any.

(** So every isolated vertex of every graph is lost in the round trip. *)
Theorem C97_isolated_refuted g x : undirected g -> vertex g x -> (forall y, ~ edge g x y) ->
  exists h, load_graph (pairs_file (edge_set g)) = Ret h /\ ~ vertex h x.
Proof.
  intros U _ N. destruct (C97_round_trip_any g U) as (g1 & g2 & E & _ & _ & _ & V & _). exists g1. split; [exact E|]. intros H. apply (proj1 (V x)) in H as (y & H). exact (N y H).
Qed.
Example isolated_example : let g := apply_op (apply_op empty_graph (OpAddEdge 1 2 1)) (OpAddVertex 5) in
  undirected g /\ vertex g 5 /\ forall y, ~ edge g 5 y.
Proof.
  split; [apply apply_op_ok, apply_op_ok, empty_graph_of|]. split; [vm_compute; tauto|]. intros y (w & H). vm_compute in H. discriminate.
Qed.
Print Assumptions C97_isolated_refuted.

(** A file with CR LF, tabs, signs and underscores; a blank line is an error. *)
Example load_example : load_graph (txt "1 2" ++ [CR; LF] ++ txt "+1_0 -3" ++ ["009"%char; LF] ++ txt "2 1") =
  Ret (add_edge (add_edge (add_edge empty_graph 1 2 1) 10 (-3) 1) 2 1 1).
Proof. vm_compute. reflexivity. Qed.
Example load_blank : load_graph (txt "1 2" ++ [LF; LF]) = Raise ValueError /\ load_graph (txt "1  2") = Raise ValueError /\
  load_graph (txt "1 2 3") = Raise ValueError /\ load_dimacs_graph (txt "c x" ++ [LF; LF] ++ txt "e 1") = Raise ValueError.
Proof. vm_compute. auto. Qed.
Example load_hypotheses : file_lines (txt "1 2" ++ [CR] ++ txt "2 3") [txt "1 2" ++ [LF]; txt "2 3"] /\
  Forall2 pair_line [txt "1 2" ++ [LF]; txt "2 3"] [(1, 2); (2, 3)].
Proof.
  split; [apply file_lines_iff; vm_compute; reflexivity|]. repeat constructor; apply read_pair_line; vm_compute; reflexivity.
Qed.
Example dimacs_hypotheses : dimacs_edges [txt "c x" ++ [LF]; txt "edge 1 2" ++ [LF]] [(1, 2)] /\ comment_line (txt "p 1").
Proof.
  split; [|intros l E; discriminate]. apply dimacs_comment; [intros l E; discriminate|]. apply dimacs_edge; [|constructor].
  apply read_edge_line; vm_compute; reflexivity.
Qed.
Example round_trip_hypotheses : let g := add_edge empty_graph 1 2 1 in
  undirected g /\ (forall x y w, weight g x y = Some w -> w = 1) /\ (forall x, vertex g x -> exists y, edge g x y).
Proof.
  cbv zeta. destruct empty_graph_of as (U & G). destruct (add_edge_graph_of empty_graph 1 2 [] U G) as (U' & A & B & C).
  split; [exact U'|]. split; [exact C|]. intros x H. apply A in H as (y & H). exists y, 1. apply B, H.
Qed.
