(** * Graphs: the properties *)
From Coq Require Import ZArith List Bool Lia Sorting.Permutation Sorting.Sorted.
From Verif Require Import Base Py Lists Lists2 Dict Graph_Model Graph_Spec Graph_Proofs Graph_Proofs2.
Import ListNotations.
Open Scope Z_scope.

(** C54: each operation keeps the graph undirected, and has its documented effect and no other. *)
Theorem C54_operation g op : undirected g ->
  undirected (apply_op g op) /\ effect op (vertex g) (weight g) (vertex (apply_op g op)) (weight (apply_op g op)).
Proof. exact (apply_op_ok g op). Qed.
Print Assumptions C54_operation.

(** C54: the graph is undirected after any history. *)
Theorem C54_histories ops : undirected (fold_left apply_op ops empty_graph).
Proof. exact (history_undirected ops). Qed.
Print Assumptions C54_histories.

(** C55: edge_set() holds each edge once, with its weight. *)
Theorem C55_edge_set g : undirected g -> NoDup (edge_set g) /\
  (forall u v, In (u, v) (edge_set g) <-> u <= v /\ edge g u v) /\
  (forall u v w, In (u, v, w) (edge_triples g) <-> u <= v /\ weight g u v = Some w) /\
  num_edges g = Z.of_nat (length (edge_set g)).
Proof.
  intros H. apply undirected_wfd in H. split; [apply edge_set_NoDup, H|]. split; [intros u v; apply edge_set_In, H|]. split; [intros u v w; apply edge_triples_In, H|reflexivity].
Qed.
Print Assumptions C55_edge_set.

(** C55: the degree is the number of neighbours; the degrees add up to twice the number of edges. *)
Theorem C55_neighbors g u : undirected g -> vertex g u ->
  exists l, neighbors g u = Ret l /\ NoDup l /\ (forall v, In v l <-> edge g u v) /\ degree g u = Ret (Z.of_nat (length l)).
Proof.
  intros H Hu. apply undirected_wfd in H. apply vertex_dget in Hu as (a & E). exists (dkeys a).
  unfold neighbors, degree, g_adj, dgetM. rewrite E. cbn [bind]. split; [reflexivity|]. split; [apply H in E; exact E|]. split.
  - intros v. unfold edge, weight. rewrite E. apply dget_key.
  - f_equal. f_equal. symmetry. apply map_length.
Qed.
Print Assumptions C55_neighbors.

Theorem C55_neighbors_error g u : ~ vertex g u -> neighbors g u = Raise KeyError /\ degree g u = Raise KeyError.
Proof.
  intros H. unfold neighbors, degree, g_adj, dgetM. rewrite (proj2 (dget_None g u) H). split; reflexivity.
Qed.
Print Assumptions C55_neighbors_error.

Theorem C55_total_degree g l : undirected g -> loop_free g -> Permutation l (map fst g) -> total_degree g l = Ret (2 * num_edges g).
Proof.
  intros H L P. rewrite total_degree_sum by (intros u Hu; eapply Permutation_in; [exact P|exact Hu]).
  f_equal. rewrite (sum_perm _ _ _ P). apply handshake; assumption.
Qed.
Print Assumptions C55_total_degree.

(** C55: complement. *)
Theorem C55_complement g : undirected g -> exists h, complement g = Ret h /\ undirected h /\ (forall x, vertex h x <-> vertex g x) /\
  (forall x y, (vertex g x /\ vertex g y /\ x <> y /\ weight g x y = None -> weight h x y = Some 1) /\
               (~ (vertex g x /\ vertex g y /\ x <> y /\ weight g x y = None) -> weight h x y = None)).
Proof. exact (complement_ok g). Qed.
Print Assumptions C55_complement.

(** C55: induced subgraph on a set S of vertices, for all iteration orders of the sets. *)
Theorem C55_induced_subgraph ord g S : (forall l, Permutation (ord l) l) -> undirected g -> (forall u, In u S -> vertex g u) ->
  exists h, induced_subgraph ord g S = Ret h /\ undirected h /\ (forall x, vertex h x <-> In x S) /\
    (forall x y, (In x S /\ In y S -> weight h x y = weight g x y) /\ (~ (In x S /\ In y S) -> weight h x y = None)).
Proof. intros Ho Hg HS. exact (induced_ok ord g S Ho Hg HS). Qed.
Print Assumptions C55_induced_subgraph.

Theorem C55_induced_subgraph_error ord g S : (forall l, Permutation (ord l) l) -> undirected g ->
  (exists u, In u S /\ ~ vertex g u) -> induced_subgraph ord g S = Raise KeyError.
Proof. intros Ho Hg. exact (induced_error ord g S Ho). Qed.
Print Assumptions C55_induced_subgraph_error.

(** C55: remove_vertices, remove_edge, remove_neighborhood and remove_closed_neighborhood. *)
Theorem C55_remove_vertices g l : undirected g -> undirected (remove_vertices g l) /\
  effect (OpDeleteVertices l) (vertex g) (weight g) (vertex (remove_vertices g l)) (weight (remove_vertices g l)).
Proof. exact (apply_op_ok g (OpDeleteVertices l)). Qed.
Print Assumptions C55_remove_vertices.

Theorem C55_remove_vertex g u : undirected g -> undirected (remove_vertex g u) /\
  effect (OpDeleteVertex u) (vertex g) (weight g) (vertex (remove_vertex g u)) (weight (remove_vertex g u)).
Proof. exact (apply_op_ok g (OpDeleteVertex u)). Qed.
Print Assumptions C55_remove_vertex.

Theorem C55_remove_edge g u v : undirected g -> undirected (remove_edge g u v) /\
  effect (OpDeleteEdge u v) (vertex g) (weight g) (vertex (remove_edge g u v)) (weight (remove_edge g u v)).
Proof. exact (apply_op_ok g (OpDeleteEdge u v)). Qed.
Print Assumptions C55_remove_edge.

Theorem C55_remove_neighborhood ord g u : (forall l, Permutation (ord l) l) -> undirected g -> vertex g u ->
  exists h, remove_neighborhood ord g u = Ret h /\ undirected h /\ (forall x, vertex h x <-> vertex g x /\ ~ edge g u x) /\
    (forall x y, vertex h x -> vertex h y -> weight h x y = weight g x y).
Proof.
  intros Ho Hg Hu. destruct (C55_neighbors g u Hg Hu) as (l & E & N & I & _). unfold remove_neighborhood. rewrite E. cbn [bind].
  destruct (delete_vertices_ok (ord l) g Hg) as (A & B & C). eexists. split; [reflexivity|]. split; [exact A|].
  assert (J : forall x, In x (ord l) <-> edge g u x).
  { intros x. rewrite <- I. split; apply Permutation_in; [apply Ho|apply Permutation_sym, Ho]. }
  split; [intros x; unfold remove_vertices; rewrite B, J; reflexivity|].
  intros x y Hx Hy. apply B in Hx, Hy. apply C; tauto.
Qed.
Print Assumptions C55_remove_neighborhood.

Theorem C55_remove_closed_neighborhood ord g u : (forall l, Permutation (ord l) l) -> undirected g -> vertex g u ->
  exists h, remove_closed_neighborhood ord g u = Ret h /\ undirected h /\ (forall x, vertex h x <-> vertex g x /\ ~ edge g u x /\ x <> u) /\
    (forall x y, vertex h x -> vertex h y -> weight h x y = weight g x y).
Proof.
  intros Ho Hg Hu. destruct (C55_neighbors g u Hg Hu) as (l & E & N & I & _). unfold remove_closed_neighborhood, closed_neighborhood. rewrite E. cbn [bind].
  remember (if existsb (Z.eqb u) l then l else l ++ [u]) as c eqn:Ec.
  assert (K : forall x, In x c <-> edge g u x \/ x = u).
  { intros x. rewrite <- I. subst c. destruct (existsb (Z.eqb u) l) eqn:X.
    - apply existsb_exists in X as (y & Hy & Ey). apply Z.eqb_eq in Ey. subst y. split; [auto|]. intros [H | ->]; assumption.
    - rewrite in_app_iff. cbn [In]. intuition. }
  destruct (delete_vertices_ok (ord c) g Hg) as (A & B & C). eexists. split; [reflexivity|]. split; [exact A|].
  assert (J : forall x, In x (ord c) <-> edge g u x \/ x = u).
  { intros x. rewrite <- K. split; apply Permutation_in; [apply Ho|apply Permutation_sym, Ho]. }
  split; [intros x; unfold remove_vertices; rewrite B, J; intuition|].
  intros x y Hx Hy. apply B in Hx, Hy. apply C; tauto.
Qed.
Print Assumptions C55_remove_closed_neighborhood.

(** C55: vertices of largest and smallest degree, for all iteration orders. *)
Theorem C55_extreme_degree ord g : (forall l, Permutation (ord l) l) -> g <> [] ->
  (exists u d, maximum_degree_vertex ord g = Ret u /\ degree g u = Ret d /\ maximum_degree ord g = Ret d /\
     forall v dv, degree g v = Ret dv -> dv <= d) /\
  (exists u d, minimum_degree_vertex ord g = Ret u /\ degree g u = Ret d /\ minimum_degree ord g = Ret d /\
     forall v dv, degree g v = Ret dv -> d <= dv).
Proof.
  intros Ho Hne.
  assert (D : forall v, vertex g v -> degree g v = Ret (degree0 g v)).
  { intros v Hv. rewrite degree_length. unfold degree0. apply vertex_dget in Hv as (a & ->). reflexivity. }
  assert (D' : forall v dv, degree g v = Ret dv -> vertex g v /\ dv = degree0 g v).
  { intros v dv. rewrite degree_length. unfold degree0. destruct (dget g v) as [a|] eqn:E; [|discriminate]. intros X. injection X as <-.
    split; [apply vertex_dget; eauto|reflexivity]. }
  split.
  - destruct (maximum_degree_vertex_ok ord g Ho Hne) as (u & R & Hu & M). exists u, (degree0 g u). split; [exact R|]. split; [apply D, Hu|].
    split; [unfold maximum_degree; rewrite R; apply D, Hu|]. intros v dv Hv. apply D' in Hv as (Hv & ->). auto.
  - destruct (minimum_degree_vertex_ok ord g Ho Hne) as (u & R & Hu & M). exists u, (degree0 g u). split; [exact R|]. split; [apply D, Hu|].
    split; [unfold minimum_degree; rewrite R; apply D, Hu|]. intros v dv Hv. apply D' in Hv as (Hv & ->). auto.
Qed.
Print Assumptions C55_extreme_degree.
(** C55: the graph without vertices has neither. *)
Theorem C55_extreme_degree_empty ord : (forall l : list Z, Permutation (ord l) l) ->
  maximum_degree_vertex ord [] = Raise ValueError /\ minimum_degree_vertex ord [] = Raise ValueError /\ maximum_degree ord [] = Raise ValueError /\ minimum_degree ord [] = Raise ValueError.
Proof.
  intros Ho. pose proof (Ho []) as P. apply Permutation_sym, Permutation_nil in P. unfold maximum_degree, minimum_degree, maximum_degree_vertex, minimum_degree_vertex.
  change (dkeys []) with (@nil Z). rewrite P. repeat split.
Qed.
Print Assumptions C55_extreme_degree_empty.

(** C55: the three orders of vertices(). *)
Theorem C55_vertices g : undirected g -> StronglySorted Z.lt (vertices g) /\ forall u, In u (vertices g) <-> vertex g u.
Proof. intros H. split; [apply zsort_strict, H|intros u; apply zsort_In]. Qed.
Print Assumptions C55_vertices.

Theorem C55_vertices_by_degree g : Permutation (vertices_by_degree g) (map fst g) /\
  StronglySorted (fun u v => degree0 g u <= degree0 g v) (vertices_by_degree g) /\
  (forall u, vertex g u -> degree g u = Ret (degree0 g u)).
Proof.
  split; [apply sort_by_perm|]. split; [apply sort_by_sorted|]. intros v Hv. rewrite degree_length. unfold degree0. apply vertex_dget in Hv as (a & ->). reflexivity.
Qed.
Print Assumptions C55_vertices_by_degree.

Theorem C55_vertices_induced ord g : (forall n l, Permutation (ord n l) l) -> undirected g ->
  exists l, vertices_induced ord g = Ret l /\ Permutation l (map fst g) /\ min_degree_order g l.
Proof.
  intros Ho Hg. destruct (induced_order_ok ord Ho (length (dkeys g)) g Hg) as (l & R & O & P); [unfold dkeys; rewrite map_length; reflexivity|].
  exists l. split; [exact R|]. split; [exact P|exact O].
Qed.
Print Assumptions C55_vertices_induced.

Definition ex_graph : graph := fold_left apply_op
  [OpAddEdge 1 2 7; OpAddEdges [(2, 3, 1); (3, 1, 4); (3, 4, 1)]; OpAddVertices [5; 6]; OpDeleteVertex 4; OpAddEdge 2 1 5; OpAddEdge 5 3 2] empty_graph.
Example C54_ex : ex_graph = [(1, [(2, 5); (3, 4)]); (2, [(1, 5); (3, 1)]); (3, [(2, 1); (1, 4); (5, 2)]); (5, [(3, 2)]); (6, [])].
Proof. vm_compute. reflexivity. Qed.
Example C55_ex : undirected ex_graph /\ loop_free ex_graph /\ total_degree ex_graph [6; 5; 3; 2; 1] = Ret 8 /\ num_edges ex_graph = 4 /\
  complement ex_graph = Ret [(1, [(5, 1); (6, 1)]); (2, [(5, 1); (6, 1)]); (3, [(6, 1)]); (5, [(1, 1); (2, 1); (6, 1)]); (6, [(1, 1); (2, 1); (3, 1); (5, 1)])] /\
  induced_subgraph (@rev Z) ex_graph [3; 6; 1] = Ret [(3, [(1, 4)]); (6, []); (1, [(3, 4)])] /\
  remove_closed_neighborhood (fun l => l) ex_graph 5 = Ret [(1, [(2, 5)]); (2, [(1, 5)]); (6, [])] /\
  maximum_degree_vertex (fun l => l) ex_graph = Ret 3.
Proof.
  split; [apply history_undirected|]. split.
  - intros u. rewrite C54_ex. unfold weight. cbn [dget]. destruct (Z.eqb_spec 1 u) as [<-|_]; [reflexivity|]. destruct (Z.eqb_spec 2 u) as [<-|_]; [reflexivity|].
    destruct (Z.eqb_spec 3 u) as [<-|_]; [reflexivity|]. destruct (Z.eqb_spec 5 u) as [<-|_]; [reflexivity|]. destruct (Z.eqb_spec 6 u) as [<-|_]; reflexivity.
  - repeat split; vm_compute; reflexivity.
Qed.
