(** * C104: the layout that heapq gives its list does not matter *)
From Coq Require Import ZArith List Lia Bool Permutation Sorted.
From Verif Require Import Base Py Gen Graph_Model Graph_Spec Graph_Proofs Trav_Model Paths_Model MST_Model Chart_Model Heapq_Spec Heapq_Model Heapq_Proofs Heapq_Proofs2.
Import ListNotations.
Open Scope Z_scope.

(** Whatever heap is used, as long as it hands out a least entry in Python's order of tuples, the five algorithms return
    (or yield, or raise) the same. *)
Theorem C104_dijkstra : forall valid Q g s, heap_ok less2 valid Q -> hq_dijkstra Q g s = dijkstra g s.
Proof. intros valid Q g s H. exact (dijkstra_same valid Q H g s). Qed.
Print Assumptions C104_dijkstra.

Theorem C104_dijkstra_iterator : forall valid Q g s fuel, heap_ok less_path valid Q -> hq_dijkstra_iterator Q g s fuel = dijkstra_iterator g s fuel.
Proof. intros valid Q g s fuel H. exact (iterator_same valid Q H g s fuel). Qed.
Print Assumptions C104_dijkstra_iterator.

Theorem C104_prim : forall valid Q g root total edges previous, heap_ok less2 valid Q ->
  hq_prim Q g root = Ret (total, edges, previous) <-> prim g root = Ret (total, edges) /\ prim_previous g root = Ret (total, previous).
Proof.
  intros valid Q g root total edges previous H. rewrite (prim_same valid Q H g root). unfold prim, prim_previous. destruct (prim_run g root) as [[[t e] p]|x|]; cbn [bind].
  - split; [intros E; injection E as <- <- <-; auto|intros (E1 & E2); congruence].
  - split; [discriminate|intros (E & _); discriminate].
  - split; [discriminate|intros (E & _); discriminate].
Qed.
Print Assumptions C104_prim.
Theorem C104_prim_error : forall valid Q g root e, heap_ok less2 valid Q -> hq_prim Q g root = Raise e <-> prim g root = Raise e.
Proof.
  intros valid Q g root e H. rewrite (prim_same valid Q H g root). unfold prim, prim_previous. destruct (prim_run g root) as [[[t l] p]|x|]; cbn [bind]; split; congruence.
Qed.
Print Assumptions C104_prim_error.

Theorem C104_kruskal : forall valid Q ord g, heap_ok less3 valid Q -> hq_kruskal Q ord g = kruskal ord g.
Proof. intros valid Q ord g H. exact (kruskal_same valid Q H ord g). Qed.
Print Assumptions C104_kruskal.

Theorem C104_chartres : forall valid Q n, heap_ok less3 valid Q -> hq_chartres Q n = chartres n.
Proof. intros valid Q n H. exact (chartres_same valid Q H n). Qed.
Print Assumptions C104_chartres.

(** ** The heaps of CPython meet the hypotheses *)
Example C104_cpython2 : heap_ok less2 (above less2 (0, 0) 0) (cpython pair_ltb (0, 0)).
Proof. apply cpython_ok; [exact pair_less|exact less2_linear]. Qed.
Example C104_cpython3 : heap_ok less3 (above less3 (0, 0, 0) 0) (cpython warc_ltb (0, 0, 0)).
Proof. apply cpython_ok; [exact warc_less|exact less3_linear]. Qed.
Example C104_cpython_path : heap_ok less_path (above less_path (0, 0, []) 0) (cpython triple_ltb (0, 0, [])).
Proof. apply cpython_ok; [exact triple_less|exact less_path_linear]. Qed.

(** The list of the heap is neither sorted nor in the order in which the entries were pushed. *)
Example C104_layout : heapify (cpython pair_ltb (0, 0)) [(3, 0); (1, 0); (2, 0); (1, 1); (5, 0)] = [(1, 0); (1, 1); (2, 0); (3, 0); (5, 0)] /\
  push (cpython pair_ltb (0, 0)) [(1, 0); (1, 1); (2, 0); (3, 0); (5, 0)] (0, 7) = [(0, 7); (1, 1); (1, 0); (3, 0); (5, 0); (2, 0)] /\
  pop (cpython pair_ltb (0, 0)) [(0, 7); (1, 1); (1, 0); (3, 0); (5, 0); (2, 0)] = ((0, 7), [(1, 0); (1, 1); (2, 0); (3, 0); (5, 0)]).
Proof. vm_compute. auto. Qed.

Definition demo : graph := fold_left apply_op [OpAddEdges [(1, 2, 4); (1, 5, 1); (2, 3, 1); (2, 5, 2); (3, 4, 7); (4, 5, 3); (4, 6, 1)]] empty_graph.
Example C104_demo : hq_kruskal (cpython warc_ltb (0, 0, 0)) (fun l => l) demo = Ret (8, [(1, 5); (2, 3); (2, 5); (4, 5); (4, 6)]).
Proof. vm_compute. reflexivity. Qed.
Example C104_demo_dijkstra : exists p, hq_dijkstra (cpython pair_ltb (0, 0)) demo 1 = Ret ([(1, Some 0); (2, Some 3); (5, Some 1); (3, Some 4); (4, Some 4); (6, Some 5)], p).
Proof. eexists. vm_compute. reflexivity. Qed.
