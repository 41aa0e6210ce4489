(** * C63: minimum spanning trees *)
From Coq Require Import ZArith List Lia Bool Permutation Sorting.Sorted.
From Verif Require Import Base Py Dict Graph_Model Graph_Spec Graph_Proofs Trav_Model Trav_Spec Trav_Proofs2 Paths_Model MST_Model MST_Spec
  MST_Proofs MST_Proofs2 MST_Proofs3.
Import ListNotations.
Open Scope Z_scope.

(** prim returns a minimum spanning tree of the component of its root; the weights may be negative. *)
Theorem C63_prim g root : undirected g -> vertex g root ->
  exists W T, prim g (Some root) = Ret (W, T) /\ listed_in_order T /\
    forall V, component_of g root V -> minimum_spanning_tree g V T W.
Proof.
  intros Hg Hr. destruct (bfs_list_ok g Hg root Hr) as (V0 & _ & N0 & H0 & _).
  destruct (prim_run_ok g root V0 Hg Hr N0 H0) as (W & prev & E & M & _).
  exists W, (sort_pairs (norm (parent_edges prev))). unfold prim. rewrite E. cbn [bind]. split; [reflexivity|].
  split; [apply (mst_result g V0 _ W Hg N0 M)|]. intros V [N H].
  destruct (prim_run_ok g root V Hg Hr N H) as (W' & prev' & E' & M' & _). rewrite E in E'. injection E' as <- _ <-.
  apply mst_result; assumption.
Qed.

(** Without edge_list the tree is given by the parents of the vertices. *)
Theorem C63_prim_previous g root : undirected g -> vertex g root ->
  exists W prev, prim_previous g (Some root) = Ret (W, prev) /\ map fst prev = map fst g /\ dget prev root = Some None /\
    forall V, component_of g root V -> minimum_spanning_tree g V (parent_edges prev) W.
Proof.
  intros Hg Hr. destruct (bfs_list_ok g Hg root Hr) as (V0 & _ & N0 & H0 & _).
  destruct (prim_run_ok g root V0 Hg Hr N0 H0) as (W & prev & E & _ & Ek & Er).
  exists W, prev. unfold prim_previous. rewrite E. cbn [bind]. split; [reflexivity|]. split; [exact Ek|]. split; [exact Er|].
  intros V [N H]. destruct (prim_run_ok g root V Hg Hr N H) as (W' & prev' & E' & M' & _). rewrite E in E'. injection E' as <- _ <-. exact M'.
Qed.

(** Without a root the first vertex is used. *)
Theorem C63_prim_default_root g : prim g None = match map fst g with [] => Raise StopIteration | r :: _ => prim g (Some r) end.
Proof. unfold prim, prim_run, prim_root, dkeys. destruct (map fst g); reflexivity. Qed.

Theorem C63_prim_missing_root g root : ~ vertex g root -> prim g (Some root) = Raise KeyError.
Proof.
  intros H. unfold prim, prim_run, prim_root. cbn [bind prim_loop pop_min mem existsb]. unfold g_adj, dgetM.
  destruct (dget g root) as [a|] eqn:E; [|reflexivity]. exfalso. apply H. apply dget_Some_In in E. apply (in_map fst) in E. exact E.
Qed.

(** kruskal returns a minimum spanning tree of a connected graph, in whatever order the
    set of its vertices is traversed. *)
Theorem C63_kruskal ord g : (forall l, Permutation (ord l) l) -> undirected g -> g <> [] -> connected g ->
  exists W T, kruskal ord g = Ret (W, T) /\ listed_in_order T /\ minimum_spanning_tree g (map fst g) T W.
Proof.
  intros Ho Hg Hn Hc. assert (Hne : dkeys g <> []) by (destruct g; [congruence|discriminate]).
  destruct (kruskal_start g (ord (dkeys g)) Hg (Ho _) Hne) as [K _]. destruct (K Hc) as (T & W & E & M).
  exists W, (sort_pairs (norm T)). unfold kruskal. rewrite E. cbn [bind]. split; [reflexivity|].
  destruct (mst_result g (dkeys g) T W Hg (proj1 Hg) M) as [M1 M2]. split; [exact M2|exact M1].
Qed.

(** On other graphs it fails. *)
Theorem C63_kruskal_disconnected ord g : (forall l, Permutation (ord l) l) -> undirected g -> ~ connected g ->
  kruskal ord g = Raise IndexError.
Proof.
  intros Ho Hg Hc. assert (Hne : dkeys g <> []).
  { destruct g; [|discriminate]. exfalso. apply Hc. intros u v []. }
  destruct (kruskal_start g (ord (dkeys g)) Hg (Ho _) Hne) as [_ K]. unfold kruskal. rewrite (K Hc). reflexivity.
Qed.

Theorem C63_kruskal_empty ord : (forall l, Permutation (ord l) l) -> kruskal ord [] = Ret (0, []).
Proof. intros Ho. unfold kruskal. cbn. reflexivity. Qed.

(** The two functions agree on the weight. *)
Theorem C63_same_weight ord g root : (forall l, Permutation (ord l) l) -> undirected g -> connected g -> vertex g root ->
  exists W T T', prim g (Some root) = Ret (W, T) /\ kruskal ord g = Ret (W, T').
Proof.
  intros Ho Hg Hc Hr. assert (Hn : g <> []) by (intros ->; destruct Hr).
  destruct (C63_prim g root Hg Hr) as (W & T & E & _ & M). destruct (C63_kruskal ord g Ho Hg Hn Hc) as (W' & T' & E' & _ & M').
  assert (C : component_of g root (map fst g)).
  { split; [apply Hg|]. intros v. split; [intros Hv; apply Hc; assumption|]. intros (n & Wk). destruct Wk as [|n u v _ Ed]; [exact Hr|].
    destruct Hg as (_ & _ & C & _). apply (C u v Ed). }
  specialize (M _ C). destruct M as (S1 & W1 & L1), M' as (S2 & W2 & L2). exists W, T, T'. split; [exact E|].
  replace W with W'; [exact E'|]. pose proof (L1 T' W' S2 W2). pose proof (L2 T W S1 W1). lia.
Qed.

(** ** The hypotheses can be met *)
Definition t_ex : graph := add_edges empty_graph [(0, 1, 4); (0, 2, 1); (2, 1, -2); (1, 3, 5); (3, 2, 7); (4, 3, 0)].

Lemma t_ex_ok : undirected t_ex.
Proof. apply (history_undirected [OpAddEdges [(0, 1, 4); (0, 2, 1); (2, 1, -2); (1, 3, 5); (3, 2, 7); (4, 3, 0)]]). Qed.

Example C63_ex : undirected t_ex /\ vertex t_ex 0 /\ connected t_ex /\
  prim t_ex (Some 0) = Ret (4, [(0, 2); (1, 2); (1, 3); (3, 4)]) /\
  kruskal (fun l => l) t_ex = Ret (4, [(0, 2); (1, 2); (1, 3); (3, 4)]).
Proof.
  assert (E : kruskal (fun l => l) t_ex = Ret (4, [(0, 2); (1, 2); (1, 3); (3, 4)])) by (vm_compute; reflexivity).
  split; [apply t_ex_ok|]. split; [left; reflexivity|]. split; [|split; [vm_compute; reflexivity|exact E]].
  assert (St : forall u v c, weight t_ex u v = Some c -> forall n a, walk t_ex a n u -> walk t_ex a (S n) v).
  { intros u v c Hw n a Wk. apply (walk_S _ _ n u v Wk). exists c. exact Hw. }
  assert (R : forall v, vertex t_ex v -> reachable t_ex 0 v).
  { intros v Hv. vm_compute in Hv. destruct Hv as [<-|[<-|[<-|[<-|[<-|[]]]]]].
    - exists 0%nat. apply walk_0.
    - exists 1%nat. apply (St 0 1 4); [reflexivity|apply walk_0].
    - exists 1%nat. apply (St 0 2 1); [reflexivity|apply walk_0].
    - exists 2%nat. apply (St 1 3 5); [reflexivity|]. apply (St 0 1 4); [reflexivity|apply walk_0].
    - exists 3%nat. apply (St 3 4 0); [reflexivity|]. apply (St 1 3 5); [reflexivity|]. apply (St 0 1 4); [reflexivity|apply walk_0]. }
  intros u v Hu Hv. apply (reach_trans t_ex u 0 v); [apply (reach_sym t_ex t_ex_ok), R, Hu|apply R, Hv].
Qed.

(** A graph that is not connected. *)
Example C63_ex_disconnected : undirected (add_vertex t_ex 9) /\ ~ connected (add_vertex t_ex 9) /\ kruskal (fun l => l) (add_vertex t_ex 9) = Raise IndexError.
Proof.
  assert (U : undirected (add_vertex t_ex 9)).
  { apply (history_undirected [OpAddEdges [(0, 1, 4); (0, 2, 1); (2, 1, -2); (1, 3, 5); (3, 2, 7); (4, 3, 0)]; OpAddVertex 9]). }
  assert (E : kruskal (fun l => l) (add_vertex t_ex 9) = Raise IndexError) by (vm_compute; reflexivity).
  split; [exact U|]. split; [|exact E]. intros C.
  destruct (C63_kruskal (fun l => l) _ (fun l => Permutation_refl l) U ltac:(discriminate) C) as (W & T & E' & _). congruence.
Qed.

Print Assumptions C63_prim.
Print Assumptions C63_prim_previous.
Print Assumptions C63_kruskal.
Print Assumptions C63_kruskal_disconnected.
Print Assumptions C63_same_weight.
