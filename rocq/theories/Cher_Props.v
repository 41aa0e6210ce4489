(** * The algorithm of Cheriton and Tarjan: C83 *)
From Coq Require Import ZArith List Lia Bool Permutation Sorting.Sorted.
From Verif Require Import Base Py Dict Graph_Model Graph_Spec Graph_Proofs Trav_Spec Trav_Proofs2 MST_Model MST_Spec MST_Proofs MST_Props Cher_Model Cher_Proofs.
Import ListNotations.
Open Scope Z_scope.

(** [pick] stands for random.choice: it returns some element of a nonempty list. *)
Definition chooses (pick : list (Z * Z) -> list Z -> Z) : Prop := forall t l, l <> [] -> In (pick t l) l.
Definition two_neighbours (g : graph) : Prop := forall u a, In (u, a) g -> (2 <= length a)%nat.

(** Whatever the random choices, a connected graph in which every vertex has at
    least two neighbours gets a minimum spanning tree. *)
Theorem C83_cheriton_tarjan : forall pick g, chooses pick -> undirected g -> g <> [] -> two_neighbours g -> connected g ->
  exists W T, cheriton_tarjan pick g = Ret (W, T) /\ listed_in_order T /\ minimum_spanning_tree g (map fst g) T W.
Proof.
  intros pick g Hp Hg Hn H2 Hc. destruct (cher_ok g pick Hg Hp Hn H2) as (K & _). destruct (K Hc) as (W & T & E & M).
  exists W, (sort_pairs (norm T)). split; [exact E|]. destruct (mst_result g (dkeys g) T W Hg (proj1 Hg) M) as [M1 M2]. split; [exact M2|exact M1].
Qed.

(** It does not return a forest on the other graphs, against its documentation. *)
Theorem C83_disconnected_refuted : forall pick g, chooses pick -> undirected g -> two_neighbours g -> ~ connected g ->
  cheriton_tarjan pick g = Raise TypeError.
Proof.
  intros pick g Hp Hg H2 Hc. assert (Hn : g <> []) by (intros ->; apply Hc; intros u v []). apply (cher_ok g pick Hg Hp Hn H2), Hc.
Qed.

(** And one vertex with fewer than two neighbours is enough to make it fail. *)
Theorem C83_leaf_refuted : forall pick g, undirected g -> ~ two_neighbours g -> cheriton_tarjan pick g = Raise UnboundLocalError.
Proof.
  intros pick g Hg N. apply cher_fail; [exact Hg|].
  assert (D : forall l : graph, (exists u a, In (u, a) l /\ (length a < 2)%nat) \/ forall u a, In (u, a) l -> (2 <= length a)%nat).
  { induction l as [|[u a] l IH]; [right; intros u a []|]. destruct (le_lt_dec 2 (length a)) as [L|L]; [|left; exists u, a; split; [left; reflexivity|exact L]].
    destruct IH as [(x & b & I & Lb)|IH]; [left; exists x, b; split; [right; exact I|exact Lb]|right]. intros x b [E|I]; [injection E as <- <-; exact L|apply (IH x), I]. }
  destruct (D g) as [H|H]; [exact H|]. destruct (N H).
Qed.

(** With prim and kruskal it agrees on the weight. *)
Theorem C83_same_weight : forall pick ord g, chooses pick -> (forall l, Permutation (ord l) l) -> undirected g -> g <> [] -> two_neighbours g -> connected g ->
  exists W T T', cheriton_tarjan pick g = Ret (W, T) /\ kruskal ord g = Ret (W, T').
Proof.
  intros pick ord g Hp Ho Hg Hn H2 Hc. destruct (C83_cheriton_tarjan pick g Hp Hg Hn H2 Hc) as (W & T & E & _ & S1 & W1 & L1). destruct (C63_kruskal ord g Ho Hg Hn Hc) as (W' & T' & E' & _ & S2 & W2 & L2).
  exists W, T, T'. split; [exact E|]. replace W with W'; [exact E'|]. pose proof (L1 T' W' S2 W2). pose proof (L2 T W S1 W1). lia.
Qed.

Print Assumptions C83_cheriton_tarjan.
Print Assumptions C83_disconnected_refuted.
Print Assumptions C83_leaf_refuted.
Print Assumptions C83_same_weight.

(** The graph of the documentation. *)
Definition c_ops : list gop := [OpAddEdges [(0, 1, 5); (0, 2, 6); (0, 3, 4); (1, 2, 1); (1, 3, 2); (2, 3, 2); (2, 4, 5); (2, 5, 3); (3, 5, 4); (4, 5, 4)]].
Definition c_ex : graph := add_edges empty_graph [(0, 1, 5); (0, 2, 6); (0, 3, 4); (1, 2, 1); (1, 3, 2); (2, 3, 2); (2, 4, 5); (2, 5, 3); (3, 5, 4); (4, 5, 4)].
Lemma c_ex_ok : undirected c_ex.
Proof. apply (history_undirected c_ops). Qed.
Lemma chooses_last : chooses (fun _ l => last l 0).
Proof. intros _ l H. destruct (exists_last H) as (l' & x & ->). rewrite last_last. apply in_or_app. right. left. reflexivity. Qed.

Example C83_ex : chooses (fun _ l => last l 0) /\ undirected c_ex /\ two_neighbours c_ex /\ connected c_ex /\
  cheriton_tarjan (fun _ l => last l 0) c_ex = Ret (14, [(0, 3); (1, 2); (1, 3); (2, 5); (4, 5)]) /\
  cheriton_tarjan (fun _ l => hd 0 l) c_ex = Ret (14, [(0, 3); (1, 2); (1, 3); (2, 5); (4, 5)]).
Proof.
  assert (T : two_neighbours c_ex). { intros u a H. vm_compute in H. repeat (destruct H as [H|H]; [injection H as _ <-; cbn [length]; lia|]). destruct H. }
  split; [apply chooses_last|]. split; [apply c_ex_ok|]. split; [exact T|]. split; [|split; vm_compute; reflexivity].
  assert (E : cheriton_tarjan (fun _ l => last l 0) c_ex = Ret (14, [(0, 3); (1, 2); (1, 3); (2, 5); (4, 5)])) by (vm_compute; reflexivity).
  destruct (cher_ok c_ex _ c_ex_ok chooses_last ltac:(discriminate) T) as (_ & D).
  assert (St : forall u v c, weight c_ex u v = Some c -> forall n a, walk c_ex a n u -> walk c_ex a (S n) v).
  { intros u v c Hw n a Wk. apply (walk_S _ _ n u v Wk). exists c. exact Hw. }
  assert (R : forall v, vertex c_ex v -> reachable c_ex 2 v).
  { intros v Hv. vm_compute in Hv. destruct Hv as [<-|[<-|[<-|[<-|[<-|[<-|[]]]]]]].
    - exists 1%nat. apply (St 2 0 6); [reflexivity|apply walk_0].
    - exists 1%nat. apply (St 2 1 1); [reflexivity|apply walk_0].
    - exists 0%nat. apply walk_0.
    - exists 1%nat. apply (St 2 3 2); [reflexivity|apply walk_0].
    - exists 1%nat. apply (St 2 4 5); [reflexivity|apply walk_0].
    - exists 1%nat. apply (St 2 5 3); [reflexivity|apply walk_0]. }
  intros u v Hu Hv. apply (reach_trans c_ex u 2 v); [apply (reach_sym c_ex c_ex_ok), R, Hu|apply R, Hv].
Qed.

(** Two triangles; a triangle with a leaf. *)
Definition c_two : graph := add_edges empty_graph [(0, 1, 1); (1, 2, 1); (0, 2, 1); (3, 4, 1); (4, 5, 1); (3, 5, 1)].
Example C83_ex_two : undirected c_two /\ two_neighbours c_two /\ ~ connected c_two /\ cheriton_tarjan (fun _ l => hd 0 l) c_two = Raise TypeError.
Proof.
  split; [apply (history_undirected [OpAddEdges [(0, 1, 1); (1, 2, 1); (0, 2, 1); (3, 4, 1); (4, 5, 1); (3, 5, 1)]])|].
  assert (T : two_neighbours c_two). { intros u a H. vm_compute in H. repeat (destruct H as [H|H]; [injection H as _ <-; cbn [length]; lia|]). destruct H. }
  split; [exact T|]. split; [|vm_compute; reflexivity]. intros C.
  assert (U : undirected c_two) by apply (history_undirected [OpAddEdges [(0, 1, 1); (1, 2, 1); (0, 2, 1); (3, 4, 1); (4, 5, 1); (3, 5, 1)]]).
  destruct (C83_cheriton_tarjan _ c_two chooses_last U ltac:(discriminate) T C) as (W & T' & E & _). vm_compute in E. discriminate.
Qed.
Definition c_leaf : graph := add_edges empty_graph [(0, 1, 1); (1, 2, 1); (0, 2, 1); (2, 3, 1)].
Example C83_ex_leaf : undirected c_leaf /\ ~ two_neighbours c_leaf /\ cheriton_tarjan (fun _ l => hd 0 l) c_leaf = Raise UnboundLocalError.
Proof.
  split; [apply (history_undirected [OpAddEdges [(0, 1, 1); (1, 2, 1); (0, 2, 1); (2, 3, 1)]])|]. split; [|vm_compute; reflexivity].
  intros H. specialize (H 3 [(2, 1)]). assert (I : In (3, [(2, 1)]) c_leaf) by (vm_compute; tauto). apply H in I. cbn [length] in I. lia.
Qed.
