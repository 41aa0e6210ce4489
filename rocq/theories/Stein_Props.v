(** * C85, C86: Steiner trees *)
From Coq Require Import ZArith List Lia Bool Permutation.
From Verif Require Import Base Py Dict Lists Graph_Model Graph_Spec Graph_Proofs Trav_Model Trav_Spec Paths_Model Paths_Spec Paths_Proofs6 Paths_Props Trav_Proofs2 MST_Model MST_Spec MST_Props Color_Model Kor_Model
  Stein_Model Stein_Spec Stein_Proofs Stein_Proofs2 Stein_Proofs3 Stein_Proofs4 Stein_Proofs5 Stein_Proofs6 Stein_Proofs7 Stein_Proofs8 Stein_Proofs9.
Import ListNotations.
Open Scope Z_scope.

(** C85: the distance network heuristic returns a tree that contains the terminals R which can be reached from the
    first one, and its weight; the leaves are terminals, and the weight is at most 2(1 - 1/t) times that of any such
    tree. *)
Theorem C85_distance_network_first ord g r0 rest R : (forall l, Permutation (ord l) l) -> undirected g -> nonneg g -> NoDup (r0 :: rest) ->
  (forall r, In r (r0 :: rest) -> vertex g r) -> NoDup R -> (forall r, In r R <-> In r (r0 :: rest) /\ reachable g r0 r) -> (2 <= length R)%nat ->
  exists W T, distance_network_heuristic ord g (r0 :: rest) = Ret (W, T) /\ steiner_tree g R T W /\ listed_in_order T /\ (forall v, leaf T v -> In v R) /\
    forall T' W', steiner_tree g R T' W' -> Z.of_nat (length R) * W <= 2 * (Z.of_nat (length R) - 1) * W'.
Proof. exact (network_some ord g r0 rest R). Qed.
Print Assumptions C85_distance_network_first.

(** C85: when the terminals are connected, these are all of them. *)
Theorem C85_distance_network ord g R : (forall l, Permutation (ord l) l) -> undirected g -> nonneg g -> NoDup R -> (2 <= length R)%nat ->
  (forall r, In r R -> vertex g r) -> (forall r r', In r R -> In r' R -> reachable g r r') ->
  exists W T, distance_network_heuristic ord g R = Ret (W, T) /\ steiner_tree g R T W /\ listed_in_order T /\ (forall v, leaf T v -> In v R) /\
    forall T' W', steiner_tree g R T' W' -> Z.of_nat (length R) * W <= 2 * (Z.of_nat (length R) - 1) * W'.
Proof.
  intros Ho Hg Hn NR LR VR CR. destruct R as [|r0 rest]; [cbn in LR; lia|]. apply (network_some ord g r0 rest (r0 :: rest)); try assumption.
  intros r. split; [|tauto]. intros I. split; [exact I|]. apply CR; [|exact I]. left. reflexivity.
Qed.
Print Assumptions C85_distance_network.

Lemma steiner_connected g R T W r r' : undirected g -> steiner_tree g R T W -> In r R -> In r' R -> reachable g r r'.
Proof.
  intros Hg (V & _ & HV & (HE & HL & _) & _) I I'. apply (linked_reachable g T); [exact Hg|intros x y J; apply HE, J|]. apply HL; apply HV; assumption.
Qed.

(** C85: when some terminal cannot be reached from the first one there is no tree that contains the terminals. A tree
    that leaves out this terminal is returned all the same, unless the first terminal is cut off from all others. *)
Theorem C85_unreachable_refuted ord g r0 rest r : (forall l, Permutation (ord l) l) -> undirected g -> nonneg g -> NoDup (r0 :: rest) ->
  (forall x, In x (r0 :: rest) -> vertex g x) -> In r rest -> ~ reachable g r0 r ->
  (forall T W, ~ steiner_tree g (r0 :: rest) T W) /\
  ((exists x, In x rest /\ reachable g r0 x) -> exists W T, distance_network_heuristic ord g (r0 :: rest) = Ret (W, T) /\ T <> [] /\ total_weight g T W /\ forall y, ~ In (r, y) T /\ ~ In (y, r) T) /\
  ((forall x, In x rest -> ~ reachable g r0 x) -> distance_network_heuristic ord g (r0 :: rest) = Raise StopIteration).
Proof.
  intros Ho Hg Hn NA VA Ir Nr. split; [|split].
  - intros T W St. apply Nr, (steiner_connected g _ T W r0 r Hg St); [left; reflexivity|right; exact Ir].
  - intros (x & Ix & Rx). destruct (bfs_list_ok g Hg r0 (VA r0 (or_introl eq_refl))) as (V0 & _ & N0 & H0 & _).
    set (R := filter (fun v => mem v V0) (r0 :: rest)).
    assert (HR : forall v, In v R <-> In v (r0 :: rest) /\ reachable g r0 v) by (intros v; unfold R; rewrite filter_In, Trav_Proofs.mem_In, H0; tauto).
    assert (NR : NoDup R) by (apply NoDup_filter, NA).
    assert (Dx : r0 <> x) by (inversion NA as [|? ? Nx _]; subst; intros ->; contradiction).
    assert (L2 : (2 <= length R)%nat).
    { change 2%nat with (length [r0; x]). apply NoDup_incl_length; [constructor; [intros [E|[]]; apply Dx; symmetry; exact E|constructor; [intros []|constructor]]|].
      intros v [<-|[<-|[]]]; apply HR; [split; [left; reflexivity|exists O; constructor]|split; [right; exact Ix|exact Rx]]. }
    destruct (network_some ord g r0 rest R Ho Hg Hn NA VA NR HR L2) as (W & T & E & (V & NV & HV & (HE & HL & LT) & TW) & _). exists W, T. split; [exact E|].
    assert (LR : (length R <= length V)%nat) by (apply NoDup_incl_length; [exact NR|exact HV]).
    assert (Q : forall v, In v V -> reachable g r0 v).
    { intros v Iv. apply (linked_reachable g T); [exact Hg|intros a b J; apply HE, J|]. apply HL; [|exact Iv]. apply HV, HR. split; [left; reflexivity|exists O; constructor]. }
    split; [intros ->; cbn in LT; lia|]. split; [exact TW|]. intros y. split; intros J; destruct (HE _ _ J) as (A & B & _); apply Nr, Q; assumption.
  - apply network_none; assumption.
Qed.
Print Assumptions C85_unreachable_refuted.

(** C85: a single terminal, which is a tree by itself, is not handled. *)
Theorem C85_single_terminal_refuted ord g r : undirected g -> nonneg g -> vertex g r ->
  distance_network_heuristic ord g [r] = Raise StopIteration /\ steiner_tree g [r] [] 0.
Proof.
  intros Hg Hn Hr. split.
  - unfold distance_network_heuristic, shortest_from. destruct (dij_ok g Hg Hn r Hr) as (dist & prev & E & _). cbn [foldM]. rewrite E. reflexivity.
  - exists [r]. split; [constructor; [intros []|constructor]|]. split; [auto|]. split; [|constructor]. split; [intros u v []|]. split; [|reflexivity].
    intros u v [<-|[]] [<-|[]]. apply linked_refl.
Qed.
Print Assumptions C85_single_terminal_refuted.

(** C86: the same for the minimum cost paths heuristic, when the weights are positive. *)
Theorem C86_minimum_cost_paths ord g R : (forall l, Permutation (ord l) l) -> undirected g -> (forall u v c, weight g u v = Some c -> 0 < c) -> NoDup R ->
  (2 <= length R)%nat -> (forall r, In r R -> vertex g r) -> (forall r r', In r R -> In r' R -> reachable g r r') ->
  exists W T, minimum_cost_paths_heuristic ord g R = Ret (W, T) /\ steiner_tree g R T W /\ listed_in_order T /\ (forall v, leaf T v -> In v R) /\
    forall T' W', steiner_tree g R T' W' -> Z.of_nat (length R) * W <= 2 * (Z.of_nat (length R) - 1) * W'.
Proof. intros Ho Hg Hp NR LR VR CR. exact (paths_heuristic g R ord Hg Hp NR LR VR CR Ho). Qed.
Print Assumptions C86_minimum_cost_paths.

(** C86: two terminals that are not connected. *)
Theorem C86_disconnected ord g r r' : (forall l, Permutation (ord l) l) -> undirected g -> nonneg g -> vertex g r -> vertex g r' -> ~ reachable g r r' ->
  minimum_cost_paths_heuristic ord g [r; r'] = Raise UnboundLocalError.
Proof.
  intros Ho Hg Hn Hr Hr' Nr. assert (D : r <> r') by (intros ->; apply Nr; exists O; constructor).
  assert (O1 : forall x, ord [x] = [x]) by (intros x; apply Permutation_length_1_inv; symmetry; apply Ho).
  unfold minimum_cost_paths_heuristic, mcp_upto, shortest_from. cbn [length].
  destruct (C59_dijkstra g r Hg Hr Hn) as (d1 & p1 & E1 & _). destruct (C59_dijkstra g r' Hg Hr' Hn) as (d2 & p2 & E2 & X2 & _).
  cbn [foldM]. rewrite E1. cbn [bind]. rewrite E2. cbn [bind mcp_round].
  destruct (X2 r Hr) as (d & Ed & Hd). destruct d as [d|].
  { exfalso. apply Nr, (reach_sym g Hg). apply (reach_wwalk g r'). exists d. apply Hd. }
  assert (EW : without [r; r'] r = [r']).
  { unfold without. cbn [filter]. rewrite Z.eqb_refl. destruct (Z.eqb_spec r' r); [congruence|reflexivity]. }
  rewrite EW. cbn [grow filter]. assert (EM : mem r' [r] = false) by (unfold mem; cbn [existsb]; destruct (Z.eqb_spec r' r); [congruence|reflexivity]).
  rewrite EM. cbn [negb]. rewrite !O1. cbn [nearest foldM]. unfold nearer.
  replace (dgetM (dset (dset [] r (d1, p1)) r' (d2, p2)) r') with (Ret (d2, p2)) by (unfold dgetM; rewrite dget_dset_same; reflexivity). cbn [bind fst].
  replace (dgetM d2 r) with (Ret (A := option Z) None) by (unfold dgetM; rewrite Ed; reflexivity). reflexivity.
Qed.
Print Assumptions C86_disconnected.

(** C86: more generally, when some terminal cannot be reached from the first one, so that there is no tree that
    contains the terminals: the loop never ends, or, when the first terminal is cut off from all others, a variable is
    read before it has a value. *)
Theorem C86_unreachable_refuted ord g r0 rest r : (forall l, Permutation (ord l) l) -> undirected g -> nonneg g -> NoDup (r0 :: rest) ->
  (forall x, In x (r0 :: rest) -> vertex g x) -> In r rest -> ~ reachable g r0 r ->
  (forall T W, ~ steiner_tree g (r0 :: rest) T W) /\
  ((exists x, In x rest /\ reachable g r0 x) -> forall fuel, mcp_upto fuel ord g (r0 :: rest) = Diverge) /\
  ((forall x, In x rest -> ~ reachable g r0 x) -> minimum_cost_paths_heuristic ord g (r0 :: rest) = Raise UnboundLocalError).
Proof.
  intros Ho Hg Hn NA VA Ir Nr. split.
  - intros T W St. apply Nr, (steiner_connected g _ T W r0 r Hg St); [left; reflexivity|right; exact Ir].
  - destruct (paths_lost ord g r0 rest r Ho Hg Hn NA VA Ir Nr) as (A & B). split; [exact A|]. intros H. apply (B H).
Qed.
Print Assumptions C86_unreachable_refuted.

(** C86: with an edge of weight zero the loop may never end: a terminal that lies on a path to another terminal
    enters the tree but stays in the set of terminals to do. *)
Definition zero_graph : graph := add_edges empty_graph [(0, 1, 1); (1, 2, 0)].
Theorem C86_zero_weight_refuted : undirected zero_graph /\ nonneg zero_graph /\ (forall l : list Z, Permutation (rev l) l) /\
  forall fuel, mcp_upto fuel (@rev Z) zero_graph [0; 1; 2] = Diverge.
Proof.
  split; [exact (history_undirected [OpAddEdges [(0, 1, 1); (1, 2, 0)]])|]. split.
  { intros u v c E. assert (A : forallb (fun ua => forallb (fun vw => 0 <=? snd vw) (snd ua)) zero_graph = true) by (vm_compute; reflexivity).
    unfold weight in E. destruct (dget zero_graph u) as [a|] eqn:Ea; [|discriminate]. apply dget_Some_In in Ea, E.
    rewrite forallb_forall in A. specialize (A _ Ea). cbn [snd] in A. rewrite forallb_forall in A. specialize (A _ E). cbn [snd] in A. apply Z.leb_le in A. exact A. }
  split; [intros l; symmetry; apply Permutation_rev|]. intros fuel. unfold mcp_upto.
  remember (shortest_from zero_graph [0; 1; 2]) as s eqn:Es. vm_compute in Es. subst s. cbn [bind].
  set (sp := [(0, _); (1, _); (2, _)]).
  assert (Loop : forall k es, grow (@rev Z) zero_graph sp k (Some (2, 0)) es [0; 2; 1] [1] = Diverge).
  { induction k as [|k IH]; intros es; [reflexivity|]. apply IH. }
  cbn [foldM mcp_round]. destruct fuel as [|k]; [reflexivity|].
  assert (E : grow (@rev Z) zero_graph sp (S k) None [] [0] (without [0; 1; 2] 0) = Diverge); [|rewrite E; reflexivity].
  apply Loop.
Qed.
Print Assumptions C86_zero_weight_refuted.

(** C86: a single terminal, and none. *)
Theorem C86_few_terminals_refuted ord g r : (forall l, Permutation (ord l) l) -> undirected g -> nonneg g -> vertex g r ->
  minimum_cost_paths_heuristic ord g [r] = Raise StopIteration /\ minimum_cost_paths_heuristic ord g [] = Raise UnboundLocalError.
Proof.
  intros Ho Hg Hn Hr. split; [|reflexivity]. unfold minimum_cost_paths_heuristic, mcp_upto, shortest_from.
  destruct (dij_ok g Hg Hn r Hr) as (dist & prev & E & _). cbn [foldM length]. rewrite E. cbn [bind mcp_round].
  assert (EW : without [r] r = []) by (unfold without; cbn [filter]; rewrite Z.eqb_refl; reflexivity). rewrite EW. cbn [grow bind].
  unfold improve. cbn [fold_left]. assert (O0 : ord [] = []) by (apply Permutation_nil; symmetry; apply Ho). rewrite O0. reflexivity.
Qed.
Print Assumptions C86_few_terminals_refuted.

(** ** The example of the documentation: u1 ... u4 are 1 ... 4, v1 ... v5 are 11 ... 15 *)
Definition stein_ex : graph := add_edges empty_graph
  [(1, 2, 1); (1, 11, 2); (1, 12, 2); (2, 13, 4); (2, 14, 3); (2, 15, 5); (3, 11, 2); (3, 13, 8); (4, 12, 8); (4, 15, 8); (11, 12, 8); (11, 13, 9); (12, 15, 5); (13, 14, 8)].

Lemma stein_ex_ok : undirected stein_ex.
Proof. exact (history_undirected [OpAddEdges [(1, 2, 1); (1, 11, 2); (1, 12, 2); (2, 13, 4); (2, 14, 3); (2, 15, 5); (3, 11, 2); (3, 13, 8); (4, 12, 8); (4, 15, 8); (11, 12, 8); (11, 13, 9); (12, 15, 5); (13, 14, 8)]]). Qed.

Lemma positive_check : forall g : graph, forallb (fun ua => forallb (fun vw => 0 <? snd vw) (snd ua)) g = true ->
  forall u v c, weight g u v = Some c -> 0 < c.
Proof.
  intros g A u v c E. unfold weight in E. destruct (dget g u) as [a|] eqn:Ea; [|discriminate]. apply dget_Some_In in Ea, E.
  rewrite forallb_forall in A. specialize (A _ Ea). cbn [snd] in A. rewrite forallb_forall in A. specialize (A _ E). cbn [snd] in A. apply Z.ltb_lt in A. exact A.
Qed.

Lemma stein_ex_positive : forall u v c, weight stein_ex u v = Some c -> 0 < c.
Proof. apply positive_check. vm_compute. reflexivity. Qed.

Lemma stein_ex_connected : forall r r', In r [11; 12; 13; 14; 15] -> In r' [11; 12; 13; 14; 15] -> reachable stein_ex r r'.
Proof.
  intros r r' Hr Hr'. apply (linked_reachable stein_ex [(1, 11); (1, 12); (1, 2); (2, 13); (2, 14); (2, 15)]).
  - exact stein_ex_ok.
  - intros x y I. repeat (destruct I as [E|I]; [injection E as <- <-; eexists; vm_compute; reflexivity|]). destruct I.
  - assert (H : forall z, In z [11; 12; 13; 14; 15] -> linked [(1, 11); (1, 12); (1, 2); (2, 13); (2, 14); (2, 15)] 1 z).
    { intros z I. repeat (destruct I as [<-|I]; [solve [apply linked_edge; cbn; tauto|apply (linked_trans _ 1 2); apply linked_edge; cbn; tauto]|]). destruct I. }
    eapply linked_trans; [apply linked_sym, H, Hr|apply H, Hr'].
Qed.

Example C85_example : undirected stein_ex /\ (forall u v c, weight stein_ex u v = Some c -> 0 < c) /\ NoDup [11; 12; 13; 14; 15] /\
  (forall r r', In r [11; 12; 13; 14; 15] -> In r' [11; 12; 13; 14; 15] -> reachable stein_ex r r') /\
  distance_network_heuristic (fun l => l) stein_ex [11; 12; 13; 14; 15] = Ret (17, [(1, 2); (1, 11); (1, 12); (2, 13); (2, 14); (2, 15)]) /\
  minimum_cost_paths_heuristic (fun l => l) stein_ex [11; 12; 13; 14; 15] = Ret (17, [(1, 2); (1, 11); (1, 12); (2, 13); (2, 14); (2, 15)]).
Proof.
  split; [exact stein_ex_ok|]. split; [exact stein_ex_positive|]. split; [repeat (constructor; [cbn; lia|]); constructor|]. split; [exact stein_ex_connected|].
  split; vm_compute; reflexivity.
Qed.

(** Two triangles: 1, 2, 3 and 4, 5, 6. *)
Definition two_triangles : graph := add_edges empty_graph [(1, 2, 4); (2, 3, 5); (1, 3, 10); (4, 5, 1); (5, 6, 1); (4, 6, 1)].
Example C85_C86_unreachable_example : undirected two_triangles /\ nonneg two_triangles /\ NoDup [3; 5; 1] /\ (forall x, In x [3; 5; 1] -> vertex two_triangles x) /\ ~ reachable two_triangles 3 5 /\
  reachable two_triangles 3 1 /\ distance_network_heuristic (fun l => l) two_triangles [3; 5; 1] = Ret (9, [(1, 2); (2, 3)]) /\
  distance_network_heuristic (fun l => l) two_triangles [3; 5; 6] = Raise StopIteration /\
  mcp_upto 100 (fun l => l) two_triangles [3; 5; 1] = Diverge /\ minimum_cost_paths_heuristic (fun l => l) two_triangles [3; 5; 6] = Raise UnboundLocalError.
Proof.
  assert (U : undirected two_triangles) by (exact (history_undirected [OpAddEdges [(1, 2, 4); (2, 3, 5); (1, 3, 10); (4, 5, 1); (5, 6, 1); (4, 6, 1)]])).
  split; [exact U|]. split; [intros u v c E; apply Z.lt_le_incl; revert u v c E; apply positive_check; vm_compute; reflexivity|].
  split; [repeat (constructor; [cbn; lia|]); constructor|]. split; [intros x I; repeat (destruct I as [<-|I]; [vm_compute; tauto|]); destruct I|].
  split.
  - intros (n & Wk). assert (H : forall n v, walk two_triangles 3 n v -> In v [1; 2; 3]).
    { intros m v Wv. induction Wv as [|m u v _ IH (w & Ew)]; [cbn; tauto|]. repeat (destruct IH as [<-|IH]; [apply dget_Some_In in Ew; vm_compute in Ew; cbn; intuition congruence|]). destruct IH. }
    apply H in Wk. cbn in Wk. lia.
  - split; [exists 1%nat; apply (walk_S _ _ 0 3); [constructor|exists 10; reflexivity]|]. repeat split; vm_compute; reflexivity.
Qed.
