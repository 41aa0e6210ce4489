(** * C56, C57, C58: traversals and components *)
From Coq Require Import ZArith List Lia Bool Permutation Sorting.Sorted.
From Verif Require Import Base Py Dict Gen Graph_Model Graph_Spec Graph_Proofs Trav_Model Trav_Spec Trav_Proofs Trav_Proofs2.
Import ListNotations.
Open Scope Z_scope.

(** A triangle with a tail, and an isolated vertex. *)
Definition g_ex : graph := add_vertex (add_edges empty_graph [(0, 1, 1); (0, 2, 1); (1, 2, 1); (1, 3, 1)]) 7.

Lemma g_ex_ok : undirected g_ex.
Proof.
  pose proof (history_undirected [OpAddEdges [(0, 1, 1); (0, 2, 1); (1, 2, 1); (1, 3, 1)]; OpAddVertex 7]) as H. exact H.
Qed.

(** ** C56 *)

(** The vertices within the given distance, once each, nearest first. *)
Theorem C56_breadth_first_search g s M : undirected g -> vertex g s ->
  exists L, yields (breadth_first_search g s M) L /\ NoDup L /\
    (forall v, In v L <-> v = s \/ exists n, walk g s n v /\ within M n) /\
    StronglySorted (fun u v => forall m n, dist g s u m -> dist g s v n -> (m <= n)%nat) L.
Proof.
  intros Hg Hs. destruct (bfs_ok g s Hg Hs M (S (length g))) as (L & E & A & B & C & _); [lia|].
  exists L. split; [|auto]. exists (S (length g)). intros fuel Hf.
  destruct (bfs_result g s Hg Hs M fuel) as (P & HI & E2); [lia|].
  destruct (bfs_result g s Hg Hs M (S (length g))) as (P1 & HI1 & E1); [lia|].
  rewrite E1 in E. injection E as <-. rewrite E2. f_equal.
  clear - E1 E2 Hf. unfold breadth_first_search in *.
  assert (K : forall f q vis l, bfs_loop g M f q vis = (l, GEnded) -> forall f', (f <= f')%nat -> bfs_loop g M f' q vis = (l, GEnded)).
  { induction f as [|f IH]; intros q vis l H f' Hf'; [discriminate|]. destruct f' as [|f']; [lia|]. cbn [bfs_loop] in *.
    destruct q as [|[u d] q]; [exact H|]. destruct (deeper M d); [|apply IH; [exact H|lia]].
    destruct (dget g u); [|discriminate]. destruct (bfs_scan _ _ _ _) as [[q' vis'] ys].
    destruct (bfs_loop g M f q' vis') as [l' st] eqn:E. injection H as <- ->.
    rewrite (IH _ _ _ E f' ltac:(lia)). reflexivity. }
  destruct (bfs_loop g M (S (length g)) [(s, 0)] [s]) as [l st] eqn:E. injection E1 as E1 ->.
  rewrite (K _ _ _ _ E fuel Hf) in E2. injection E2 as E2. congruence.
Qed.
Print Assumptions C56_breadth_first_search.

(** A start that is not a vertex is yielded, and then KeyError is raised. *)
Theorem C56_missing_start g s M fuel : ~ vertex g s -> (0 < fuel)%nat -> (match M with Some m => 0 < m | None => True end) ->
  breadth_first_search g s M fuel = ([s], GRaised KeyError).
Proof.
  intros H Hf HM. destruct fuel as [|fuel]; [lia|]. unfold breadth_first_search. cbn [bfs_loop].
  assert (D : deeper M 0 = true) by (destruct M as [m|]; [apply Z.ltb_lt, HM|reflexivity]). rewrite D.
  destruct (dget g s) as [a|] eqn:E; [|reflexivity]. destruct H. apply vertex_dget. eauto.
Qed.
Print Assumptions C56_missing_start.

(** The parents form a tree of shortest paths to the reachable vertices. *)
Theorem C56_breadth_first_search_tree g s : undirected g -> vertex g s ->
  exists prev, breadth_first_search_tree g s = Ret prev /\ rooted_tree g s prev /\
    (forall v, In v (map fst prev) <-> reachable g s v) /\
    (forall v p n, In (v, Some p) prev -> dist g s p n -> dist g s v (S n)).
Proof. intros. apply bfst_ok; assumption. Qed.
Print Assumptions C56_breadth_first_search_tree.

Theorem C56_tree_missing_start g s : ~ vertex g s -> breadth_first_search_tree g s = Raise KeyError.
Proof.
  intros H. unfold breadth_first_search_tree. cbn [bfst_loop]. unfold g_adj, dgetM.
  destruct (dget g s) as [a|] eqn:E; [|reflexivity]. destruct H. apply vertex_dget. eauto.
Qed.
Print Assumptions C56_tree_missing_start.

Example C56_ex : undirected g_ex /\ vertex g_ex 3 /\ ~ vertex g_ex 9 /\
  breadth_first_search g_ex 3 None 9 = ([3; 1; 0; 2], GEnded) /\
  breadth_first_search g_ex 3 (Some 1) 9 = ([3; 1], GEnded) /\
  breadth_first_search_tree g_ex 3 = Ret [(3, None); (1, Some 3); (0, Some 1); (2, Some 1)].
Proof.
  split; [exact g_ex_ok|]. split; [cbn; tauto|]. split; [cbn; lia|]. repeat split; vm_compute; reflexivity.
Qed.

(** ** C57 *)

(** Without max_depth: exactly the reachable vertices, once each; with max_depth, only
    vertices within that distance. *)
Theorem C57_depth_first_search g s M : undirected g -> vertex g s ->
  exists L, yields (depth_first_search g s M) L /\ NoDup L /\ In s L /\
    (forall v, In v L -> v = s \/ exists n, walk g s n v /\ within M n) /\
    (M = None -> forall v, In v L <-> reachable g s v).
Proof.
  intros Hg Hs. destruct (dfs_ok g s Hg Hs M (S (S (udeg g [])))) as (L & E & A & B & C & D); [lia|].
  exists L. split; [|auto]. exists (S (S (udeg g []))). intros fuel Hf.
  assert (K : forall f q vis l, dfs_loop g M f q vis = (l, GEnded) -> forall f', (f <= f')%nat -> dfs_loop g M f' q vis = (l, GEnded)).
  { clear. induction f as [|f IH]; intros q vis l H f' Hf'; [discriminate|]. destruct f' as [|f']; [lia|]. cbn [dfs_loop] in *.
    destruct q as [|[u d] q]; [exact H|]. destruct (mem u vis); [apply IH; [exact H|lia]|].
    destruct (deeper M d).
    - destruct (dget g u); [|discriminate]. destruct (dfs_loop g M f _ _) as [l' st] eqn:E. injection H as <- ->.
      rewrite (IH _ _ _ E f' ltac:(lia)). reflexivity.
    - destruct (dfs_loop g M f _ _) as [l' st] eqn:E. injection H as <- ->.
      rewrite (IH _ _ _ E f' ltac:(lia)). reflexivity. }
  apply (K _ _ _ _ E fuel Hf).
Qed.
Print Assumptions C57_depth_first_search.

(** The parents form a tree on the reachable vertices, and it is a depth-first tree:
    every edge joins a vertex and one of its ancestors. *)
Theorem C57_depth_first_search_tree g s : undirected g -> vertex g s ->
  exists prev, depth_first_search_tree g s = Ret prev /\ rooted_tree g s prev /\
    (forall v, In v (map fst prev) <-> reachable g s v) /\
    (forall u v, In u (map fst prev) -> edge g u v -> ancestor prev u v \/ ancestor prev v u).
Proof. intros. apply dfst_ok; assumption. Qed.
Print Assumptions C57_depth_first_search_tree.

(** The search yields the vertices in the order in which the tree was grown. *)
Theorem C57_same_order g s prev : undirected g -> vertex g s -> depth_first_search_tree g s = Ret prev ->
  yields (depth_first_search g s None) (map fst prev).
Proof.
  intros Hg Hs E. destruct (dfs_same g Hg _ _ _ _ E [(s, 0)]) as (L & N & E1 & E2).
  - intros x [<-|[]]. exact Hs.
  - reflexivity.
  - exists N. intros fuel Hf. unfold depth_first_search. change (map fst prev) with (dkeys prev). rewrite E1. apply (E2 fuel Hf).
Qed.
Print Assumptions C57_same_order.

(** A start that is not a vertex is yielded before the exception; the tree raises at once. *)
Theorem C57_missing_start g s fuel : ~ vertex g s ->
  (forall M, (match M with Some m => 0 < m | None => True end) -> depth_first_search g s M (S fuel) = ([s], GRaised KeyError)) /\
  depth_first_search_tree g s = Raise KeyError.
Proof.
  intros H. assert (E : dget g s = None) by (destruct (dget g s) as [a|] eqn:E; [destruct H; apply vertex_dget; eauto|reflexivity]). split.
  - intros M HM. unfold depth_first_search. cbn [dfs_loop mem existsb]. assert (D : deeper M 0 = true) by (destruct M as [m|]; [apply Z.ltb_lt, HM|reflexivity]).
    rewrite D, E. reflexivity.
  - unfold depth_first_search_tree. cbn [dfst_loop dmem dget]. unfold g_adj, dgetM. rewrite E. reflexivity.
Qed.
Print Assumptions C57_missing_start.

(** No search goes deeper than there are vertices: with such a max_depth nothing is missed. *)
Theorem C57_max_depth_large g s m fuel : undirected g -> vertex g s -> Z.of_nat (length g) <= m ->
  depth_first_search g s (Some m) fuel = depth_first_search g s None fuel.
Proof.
  intros Hg Hs Hm. unfold depth_first_search.
  assert (K : forall fuel stack visited, (forall v d, In (v, d) stack -> vertex g v /\ d <= Z.of_nat (length visited)) -> NoDup visited -> (forall v, In v visited -> vertex g v) ->
    dfs_loop g (Some m) fuel stack visited = dfs_loop g None fuel stack visited).
  { clear fuel. induction fuel as [|fuel IH]; intros stack visited HS N HV; [reflexivity|]. cbn [dfs_loop]. destruct stack as [|[u d] stack]; [reflexivity|].
    destruct (mem u visited) eqn:Em; [apply IH; auto; intros v e Hv; apply HS; right; exact Hv|].
    assert (Hu : ~ In u visited) by (intros X; apply mem_In in X; congruence). destruct (HS u d (or_introl eq_refl)) as (Vu & Hd).
    assert (N' : NoDup (visited ++ [u])) by (rewrite <- (rev_involutive (visited ++ [u])), rev_app_distr; apply NoDup_rev; cbn; constructor; [rewrite <- in_rev; exact Hu|apply NoDup_rev, N]).
    assert (HV' : forall v, In v (visited ++ [u]) -> vertex g v) by (intros v X; apply in_app_or in X as [X|[<-|[]]]; auto).
    assert (L : (length (visited ++ [u]) <= length g)%nat) by (rewrite <- (map_length fst g); apply NoDup_incl_length; [exact N'|exact HV']).
    rewrite app_length in L. cbn [length] in L. assert (D : deeper (Some m) d = true) by (apply Z.ltb_lt; lia). rewrite D. cbn [deeper].
    destruct (dget g u) as [a|] eqn:Ea; [|reflexivity]. rewrite IH; [reflexivity| |exact N'|exact HV'].
    intros v e Hv. rewrite app_length. cbn [length]. apply in_app_or in Hv as [Hv|Hv].
    - apply in_rev, in_map_iff in Hv as (w & X & Hw). injection X as -> <-. apply filter_In in Hw as (Hw & _). split; [|lia].
      destruct Hg as (_ & _ & H3 & _). apply (H3 u v). unfold edge, weight. rewrite Ea. apply dget_key. exact Hw.
    - destruct (HS v e (or_intror Hv)). split; [assumption|lia]. }
  apply K; [|constructor|intros v []]. intros v d [X|[]]. injection X as <- <-. split; [exact Hs|cbn; lia].
Qed.
Print Assumptions C57_max_depth_large.

(** With max_depth a vertex within that distance may be missed. *)
Theorem C57_max_depth_refuted : exists g s v, undirected g /\ vertex g s /\ walk g s 2 v /\
  yields (depth_first_search g s (Some 2)) [0; 2; 1] /\ ~ In v [0; 2; 1].
Proof.
  exists g_ex, 0, 3. split; [exact g_ex_ok|]. split; [cbn; tauto|]. split.
  - apply walk_S with 1; [|exists 1; reflexivity]. apply walk_S with 0; [constructor|exists 1; reflexivity].
  - split; [|cbn; lia]. exists 20%nat. intros fuel Hf. do 20 (destruct fuel as [|fuel]; [lia|]). reflexivity.
Qed.
Print Assumptions C57_max_depth_refuted.

Example C57_ex : depth_first_search g_ex 0 None 20 = ([0; 2; 1; 3], GEnded) /\
  depth_first_search_tree g_ex 0 = Ret [(0, None); (2, Some 0); (1, Some 2); (3, Some 1)].
Proof. split; reflexivity. Qed.

(** ** C58 *)

(** The components are nonempty, disjoint, cover the vertices, and each is a class of
    mutual reachability. *)
Theorem C58_connected_components g : undirected g -> exists cs, connected_components g = Ret cs /\
  (forall c, In c cs -> c <> []) /\ NoDup (concat cs) /\ (forall v, In v (concat cs) <-> vertex g v) /\
  (forall c u v, In c cs -> In u c -> (In v c <-> reachable g u v)).
Proof.
  intros Hg. destruct (components_ok g Hg (dkeys g) []) as (cs & E & A & B & _ & D & F).
  - intros v Hv. exact Hv.
  - intros u v [].
  - exists cs. split; [exact E|]. split; [apply Forall_forall; exact A|]. split; [exact B|]. split; [|exact F].
    intros v. rewrite D. split.
    + intros (_ & u & Hu & n & W). destruct W as [|n x y W Exy]; [exact Hu|]. destruct Hg as (_ & _ & K & _). apply (K x). exact Exy.
    + intros Hv. split; [tauto|]. exists v. split; [exact Hv|exists O; constructor].
Qed.
Print Assumptions C58_connected_components.

Theorem C58_connected_component g u : undirected g -> vertex g u -> exists c, connected_component g u = Ret c /\ NoDup c /\
  forall v, In v c <-> reachable g u v.
Proof. intros Hg Hu. destruct (bfs_list_ok g Hg u Hu) as (L & E & N & R & _). exists L. auto. Qed.
Print Assumptions C58_connected_component.

(** Whatever the iteration order of the set of vertices. *)
Theorem C58_is_connected ord g : undirected g -> (forall l, Permutation (ord l) l) ->
  exists b, is_connected ord g = Ret b /\ (b = true <-> forall u v, vertex g u -> vertex g v -> reachable g u v).
Proof.
  intros Hg Ho. unfold is_connected. pose proof (Ho (dkeys g)) as P. destruct (ord (dkeys g)) as [|u l].
  - exists true. split; [reflexivity|]. split; [|reflexivity]. intros _ u v Hu _.
    apply (Permutation_in u (Permutation_sym P)) in Hu. destruct Hu.
  - assert (Hu : vertex g u) by (apply (Permutation_in u P); left; reflexivity).
    destruct (bfs_list_ok g Hg u Hu) as (c & E & N & R & V). rewrite E. cbn [bind].
    eexists. split; [reflexivity|]. rewrite andb_true_iff, !forallb_forall. split.
    + intros [_ H] x y Hx Hy. apply H in Hx. apply H in Hy. apply mem_In in Hx. apply mem_In in Hy.
      apply R in Hx. apply R in Hy. apply reach_trans with u; [apply reach_sym; assumption|assumption].
    + intros H. split.
      * intros x Hx. apply mem_In. apply V. exact Hx.
      * intros x Hx. apply mem_In. apply R. apply H; assumption.
Qed.
Print Assumptions C58_is_connected.

Example C58_ex : connected_components g_ex = Ret [[0; 1; 2; 3]; [7]] /\ is_connected (@rev Z) g_ex = Ret false.
Proof. split; reflexivity. Qed.
