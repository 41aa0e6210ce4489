(** * C59-C62: shortest paths *)
From Coq Require Import ZArith List Lia Bool Sorting.Sorted.
From Verif Require Import Base Py Dict Gen Graph_Model Graph_Spec Graph_Proofs Trav_Model Trav_Spec Paths_Model Paths_Spec
  Paths_Proofs Paths_Proofs2 Paths_Proofs3 Paths_Proofs4 Paths_Proofs5 Paths_Proofs6 Paths_Proofs7 Paths_Proofs8.
Import ListNotations.
Open Scope Z_scope.

(** C59: the three functions return exact distances and predecessors along shortest paths. *)
Theorem C59_dijkstra g s : undirected g -> vertex g s -> nonneg g ->
  exists dist prev, dijkstra g s = Ret (dist, prev) /\ exact_distances g s dist /\ shortest_paths g s prev.
Proof.
  intros Hg Hs Hn. destruct (dijkstra_ok g s Hg Hs Hn) as (dist & prev & E & F). exists dist, prev. split; [exact E|].
  apply finished_ok; assumption.
Qed.
Theorem C59_dijkstra_buckets g s : undirected g -> vertex g s -> nonneg g ->
  exists dist prev, dijkstra_buckets g s = Ret (dist, prev) /\ exact_distances g s dist /\ shortest_paths g s prev.
Proof.
  intros Hg Hs Hn. destruct (dijkstra_buckets_ok g s Hg Hs Hn) as (dist & prev & E & F). exists dist, prev. split; [exact E|].
  apply finished_ok; assumption.
Qed.
Theorem C59_dijkstra_pairing_heap g s : undirected g -> vertex g s -> nonneg g ->
  exists dist prev, dijkstra_pairing_heap g s = Ret (dist, prev) /\ exact_distances g s dist /\ shortest_paths g s prev.
Proof.
  intros Hg Hs Hn. destruct (dijkstra_pairing_heap_ok g s Hg Hs Hn) as (dist & prev & E & F). exists dist, prev. split; [exact E|].
  apply finished_ok; assumption.
Qed.

(** C59: the generator yields each reachable vertex once, in the order of the distances,
    with its distance and a path of that length. *)
Theorem C59_dijkstra_iterator g s : undirected g -> vertex g s -> nonneg g ->
  exists L, yields (dijkstra_iterator g s) L /\
    StronglySorted (fun x y : Z * Z * list Z => snd (fst x) <= snd (fst y)) L /\ NoDup (map (fun x => fst (fst x)) L) /\
    (forall u w p, In (u, w, p) L -> shortest g s u w /\ vpath g s p u w) /\
    (forall v W, wwalk g s v W -> In v (map (fun x => fst (fst x)) L)).
Proof. apply iterator_ok. Qed.

Theorem C59_missing_source g s : ~ vertex g s ->
  dijkstra g s = Raise ValueError /\ dijkstra_buckets g s = Raise ValueError /\ dijkstra_pairing_heap g s = Raise ValueError /\
  forall fuel, dijkstra_iterator g s fuel = ([], GRaised ValueError).
Proof.
  intros H. assert (E : dmem g s = false) by (destruct (dmem g s) eqn:E; [destruct H; apply dmem_In; exact E|reflexivity]).
  unfold dijkstra, dijkstra_buckets, dijkstra_pairing_heap, dijkstra_iterator. rewrite E. auto.
Qed.

(** C60: bellman_ford returns exact distances and shortest paths unless s is missing or a
    negative cycle can be reached; then, and only then, it raises ValueError. *)
Theorem C60_bellman_ford g s : undirected g -> vertex g s -> ~ negative_cycle g s ->
  exists cost prev, bellman_ford g s = Ret (cost, prev) /\ exact_distances g s cost /\ shortest_paths g s prev.
Proof. apply bellman_ford_nn. Qed.
Theorem C60_value_error g s : undirected g ->
  (bellman_ford g s = Raise ValueError <-> ~ vertex g s \/ negative_cycle g s).
Proof.
  intros Hg. split.
  - intros E. destruct (in_dec Z.eq_dec s (map fst g)) as [Hs|Hs]; [|left; exact Hs]. right.
    apply bellman_ford_raise; assumption.
  - intros [H|H].
    + unfold bellman_ford. destruct (dmem g s) eqn:E; [destruct H; apply dmem_In; exact E|reflexivity].
    + destruct (in_dec Z.eq_dec s (map fst g)) as [Hs|Hs].
      * destruct (bellman_ford_any g s Hg Hs) as [E|(cost & prev & _ & _ & N)]; [exact E|contradiction].
      * unfold bellman_ford. destruct (dmem g s) eqn:E; [destruct Hs; apply dmem_In; exact E|reflexivity].
Qed.

(** C61: exact distances for all pairs, predecessors on shortest paths. *)
Theorem C61_floyd_warshall g : undirected g -> nonneg g -> exists dist pred, floyd_warshall g = Ret (dist, pred) /\
  forall v w, vertex g v -> vertex g w ->
    match dist v w with Some d => shortest g v w d | None => forall W, ~ wwalk g v w W end /\
    match pred v w with
    | Some x => v <> w /\ exists c dx, weight g x w = Some c /\ dist v x = Some dx /\ dist v w = Some (dx + c)
    | None => v = w \/ dist v w = None
    end.
Proof. apply floyd_warshall_ok. Qed.
(** C61: an edge of negative weight between two vertices is a negative cycle. *)
Theorem C61_negative_edge g a b c : undirected g -> a <> b -> weight g a b = Some c -> c < 0 -> floyd_warshall g = Raise ValueError.
Proof. intros Hg. apply floyd_warshall_negative. exact Hg. Qed.
(** C61: so an undirected graph raises exactly if some edge between two vertices has negative weight; otherwise the distances are
    those in the graph without its loops, whatever the weights of the loops. *)
Theorem C61_without_loops g u v : (vertex (without_loops g) v <-> vertex g v) /\ weight (without_loops g) u v = if u =? v then None else weight g u v.
Proof. split; [apply vertex_without|apply weight_without]. Qed.
Theorem C61_loops g : undirected g -> (forall u v c, u <> v -> weight g u v = Some c -> 0 <= c) -> exists dist pred, floyd_warshall g = Ret (dist, pred) /\
  forall v w, vertex g v -> vertex g w ->
    match dist v w with Some d => shortest (without_loops g) v w d | None => forall W, ~ wwalk (without_loops g) v w W end /\
    match pred v w with
    | Some x => v <> w /\ exists c dx, weight (without_loops g) x w = Some c /\ dist v x = Some dx /\ dist v w = Some (dx + c)
    | None => v = w \/ dist v w = None
    end.
Proof. apply floyd_warshall_loops. Qed.
(** C61: a loop of negative weight is a negative cycle, and is not noticed. *)
Theorem C61_negative_loop_refuted g v c : undirected g -> (forall u v c, u <> v -> weight g u v = Some c -> 0 <= c) -> weight g v v = Some c -> c < 0 ->
  negative_cycle g v /\ wwalk g v v c /\ exists dist pred, floyd_warshall g = Ret (dist, pred) /\ dist v v = Some 0.
Proof.
  intros Hg Hn Hw Hc. assert (W : wwalk g v v c) by (change c with (0 + c); apply wwalk_snoc with v; [constructor|exact Hw]). split; [exists v, 0, c; split; [constructor|split; assumption]|]. split; [exact W|].
  destruct (C61_loops g Hg Hn) as (dist & pred & E & H). exists dist, pred. split; [exact E|]. assert (Vv : vertex g v) by (destruct Hg as (_ & _ & V & _); apply (V v); exists c; exact Hw).
  destruct (H v v Vv Vv) as (H1 & _). destruct (dist v v) as [d|]; [|destruct (H1 0); constructor]. f_equal. destruct H1 as (W1 & M). specialize (M 0 (wwalk_nil _ _)).
  assert (N : forall a b W0, wwalk (without_loops g) a b W0 -> 0 <= W0). { induction 1 as [|x y W0 c0 _ IH Hx]; [lia|]. rewrite weight_without in Hx. destruct (Z.eqb_spec x y); [discriminate|]. specialize (Hn x y c0 n Hx). lia. }
  specialize (N _ _ _ W1). lia.
Qed.
Example C61_negative_loop_ex : exists g, undirected g /\ (forall u v c, u <> v -> weight g u v = Some c -> 0 <= c) /\ weight g 1 1 = Some (-1) /\ weight g 1 2 = Some 4.
Proof.
  exists (fold_left apply_op [OpAddEdge 1 1 (-1); OpAddEdge 1 2 4] empty_graph). split; [apply history_undirected|]. split; [|split; reflexivity].
  intros u v c D H. change (weight [(1, [(1, -1); (2, 4)]); (2, [(1, 4)])] u v = Some c) in H. unfold weight in H. cbn [dget] in H.
  repeat match type of H with context [Z.eqb ?x ?y] => destruct (Z.eqb_spec x y); cbn [dget] in H end; try discriminate; try congruence; injection H as <-; lia.
Qed.

(** C62: for two vertices. *)
Theorem C62_dijkstra_bidirectional g s t : undirected g -> nonneg g -> vertex g s -> vertex g t -> s <> t ->
  exists r, dijkstra_bidirectional g s t = Ret r /\
    match r with
    | BiPair (Some d) p => shortest g s t d /\ vpath g s p t d
    | BiPair None _ => False
    | BiInf => forall W, ~ wwalk g s t W
    end.
Proof. intros Hg Hn. apply bidirectional_ok; assumption. Qed.
(** C62: from a vertex to itself the result is (inf, []) although the distance is 0. *)
Theorem C62_same_vertex g s : undirected g -> nonneg g -> loop_free g -> vertex g s ->
  dijkstra_bidirectional g s s = Ret (BiPair None []) /\ shortest g s s 0.
Proof.
  intros Hg Hn Hl Hs. split; [apply bidirectional_same; assumption|]. split; [constructor|]. intros W. apply wwalk_nonneg. exact Hn.
Qed.
Theorem C62_missing_vertex g s t : ~ vertex g s \/ ~ vertex g t -> dijkstra_bidirectional g s t = Raise ValueError.
Proof.
  assert (E : forall v, ~ vertex g v -> dmem g v = false).
  { intros v H. destruct (dmem g v) eqn:E; [destruct H; apply dmem_In; exact E|reflexivity]. }
  unfold dijkstra_bidirectional. intros [H|H]; rewrite (E _ H); [reflexivity|]. destruct (dmem g s); reflexivity.
Qed.

(** ** Examples *)
Definition w_ex : graph := add_vertex (add_edges empty_graph [(0, 1, 4); (0, 2, 1); (2, 1, 2); (1, 3, 0); (3, 2, 7)]) 9.

Lemma w_ex_ok : undirected w_ex.
Proof. exact (history_undirected [OpAddEdges [(0, 1, 4); (0, 2, 1); (2, 1, 2); (1, 3, 0); (3, 2, 7)]; OpAddVertex 9]). Qed.

Lemma w_ex_nonneg : nonneg w_ex.
Proof.
  intros u v c E. unfold weight in E. destruct (dget w_ex u) as [row|] eqn:Er; [|discriminate].
  apply dget_Some_In in Er. apply dget_Some_In in E. vm_compute in Er.
  repeat (destruct Er as [Er|Er]; [injection Er as <- <-; repeat (destruct E as [E|E]; [injection E as <- <-; lia|]); destruct E|]). destruct Er.
Qed.

Example C59_ex : undirected w_ex /\ nonneg w_ex /\ vertex w_ex 0 /\ ~ vertex w_ex 8 /\
  dijkstra w_ex 0 = Ret ([(0, Some 0); (1, Some 3); (2, Some 1); (3, Some 3); (9, None)],
                         [(0, None); (1, Some 2); (2, Some 0); (3, Some 1); (9, None)]) /\
  dijkstra_iterator w_ex 0 9 = ([(0, 0, [0]); (2, 1, [0; 2]); (1, 3, [0; 2; 1]); (3, 3, [0; 2; 1; 3])], GEnded).
Proof.
  split; [apply w_ex_ok|]. split; [apply w_ex_nonneg|]. split; [left; reflexivity|].
  split; [intros H; vm_compute in H; repeat (destruct H as [H|H]; [discriminate|]); exact H|].
  split; vm_compute; reflexivity.
Qed.

(** A graph with a negative edge out of reach from 0. *)
Definition n_ex : graph := add_edges empty_graph [(0, 1, 4); (0, 2, 1); (2, 1, 2); (5, 6, -3)].

Lemma n_ex_ok : undirected n_ex.
Proof. exact (history_undirected [OpAddEdges [(0, 1, 4); (0, 2, 1); (2, 1, 2); (5, 6, -3)]]). Qed.

Example C60_ex : undirected n_ex /\ vertex n_ex 0 /\ ~ negative_cycle n_ex 0 /\ negative_cycle n_ex 5 /\
  bellman_ford n_ex 0 = Ret ([(0, Some 0); (1, Some 3); (2, Some 1); (5, None); (6, None)],
                             [(0, None); (1, Some 2); (2, Some 0); (5, None); (6, None)]) /\
  bellman_ford n_ex 5 = Raise ValueError.
Proof.
  assert (E0 : bellman_ford n_ex 0 = Ret ([(0, Some 0); (1, Some 3); (2, Some 1); (5, None); (6, None)],
                             [(0, None); (1, Some 2); (2, Some 0); (5, None); (6, None)])) by (vm_compute; reflexivity).
  assert (E5 : bellman_ford n_ex 5 = Raise ValueError) by (vm_compute; reflexivity).
  split; [apply n_ex_ok|]. split; [left; reflexivity|]. split; [|split; [|split; [exact E0|exact E5]]].
  - intros H. assert (K : bellman_ford n_ex 0 = Raise ValueError) by (apply C60_value_error; [apply n_ex_ok|right; exact H]). congruence.
  - apply (C60_value_error n_ex 5 n_ex_ok) in E5. destruct E5 as [H|H]; [|exact H]. destruct H. vm_compute. auto.
Qed.

Example C61_ex : undirected w_ex /\ nonneg w_ex /\ undirected n_ex /\ 5 <> 6 /\ weight n_ex 5 6 = Some (-3) /\
  match floyd_warshall w_ex with
  | Ret (dist, pred) => dist 3 0 = Some 3 /\ pred 3 0 = Some 2 /\ dist 0 9 = None
  | _ => False
  end.
Proof.
  split; [apply w_ex_ok|]. split; [apply w_ex_nonneg|]. split; [apply n_ex_ok|]. split; [lia|]. split; [reflexivity|].
  vm_compute. auto.
Qed.

Example C62_ex : undirected w_ex /\ nonneg w_ex /\ loop_free w_ex /\ vertex w_ex 0 /\ vertex w_ex 3 /\ vertex w_ex 9 /\
  dijkstra_bidirectional w_ex 0 3 = Ret (BiPair (Some 3) [0; 2; 1; 3]) /\ dijkstra_bidirectional w_ex 0 9 = Ret BiInf /\
  dijkstra_bidirectional w_ex 0 0 = Ret (BiPair None []).
Proof.
  split; [apply w_ex_ok|]. split; [apply w_ex_nonneg|]. split.
  { intros u. unfold weight. destruct (dget w_ex u) as [row|] eqn:Er; [|reflexivity]. apply dget_Some_In in Er. vm_compute in Er.
    repeat (destruct Er as [Er|Er]; [injection Er as <- <-; reflexivity|]). destruct Er. }
  split; [vm_compute; auto|]. split; [vm_compute; auto 6|]. split; [vm_compute; auto 7|].
  split; [vm_compute; reflexivity|]. split; vm_compute; reflexivity.
Qed.

Print Assumptions C59_dijkstra.
Print Assumptions C59_dijkstra_buckets.
Print Assumptions C59_dijkstra_pairing_heap.
Print Assumptions C59_dijkstra_iterator.
Print Assumptions C60_value_error.
Print Assumptions C61_floyd_warshall.
Print Assumptions C61_without_loops.
Print Assumptions C61_loops.
Print Assumptions C61_negative_loop_refuted.
Print Assumptions C61_negative_edge.
Print Assumptions C62_dijkstra_bidirectional.
