(** * C29 for values of any type, and C83 with the LeftistHeap objects *)
From Coq Require Import ZArith List Lia Bool Permutation Sorted.
From Verif Require Import Base Py Dict Graph_Model Graph_Spec Graph_Proofs Trav_Spec Paths_Model MST_Model MST_Spec Cher_Model Cher_Props Heapq_Spec Heapq_Proofs Lft_Model Lft_Proofs.
Import ListNotations.
Open Scope Z_scope.

(** C29: a heap of values of any type on which < is a linear order (tuples, for instance) hands them out in increasing order. *)
Theorem C29_any_order : forall A (ltb : A -> A -> bool) (less : A -> A -> Prop) values,
  (forall x y, ltb x y = true <-> less x y) ->
  (forall x y, less x y -> ~ less y x) -> (forall x y, less x y \/ x = y \/ less y x) -> (forall x y z, less x y -> less y z -> less x z) ->
  (2 <= length values)%nat ->
  exists h, th_init ltb values = Ret h /\ Permutation (drain ltb (length values) h) values /\ StronglySorted (fun x y => x = y \/ less x y) (drain ltb (length values) h).
Proof.
  intros A ltb less values D As To Tr H.
  assert (L : linear less).
  { split; [exact As|]. split; [intros x y N1 N2; destruct (To x y) as [K|[K|K]]; tauto|]. intros x y z N1 N2 K.
    destruct (To y x) as [K1|[<-|K1]]; [|exact (N2 K)|exact (N1 K1)]. exact (N2 (Tr _ _ _ K1 K)). }
  pose proof (th_init_ok ltb less D L values) as R. destruct (th_init ltb values) as [h|e|]; [|lia|contradiction]. destruct R as (_ & R). exists h. split; [reflexivity|].
  destruct (drain_ok ltb less D L (length values) h values R eq_refl) as (P & So). split; [exact P|].
  clear P. induction So as [|x l So IH F]; constructor; [exact IH|]. eapply Forall_impl; [|exact F]. intros y Ny. cbv beta in Ny |- *. destruct (To x y) as [K|[K|K]]; tauto.
Qed.
Print Assumptions C29_any_order.

(** C83: with the heaps of heaps.py instead of lists of their contents, cheriton_tarjan returns (or raises) the same. *)
Theorem C83_leftist_heaps : forall pick g, lct_cheriton_tarjan pick g = cheriton_tarjan pick g.
Proof. exact lct_same. Qed.
Print Assumptions C83_leftist_heaps.

(** In particular a minimum spanning tree. *)
Theorem C83_cheriton_tarjan_leftist : forall pick g, chooses pick -> undirected g -> g <> [] -> two_neighbours g -> connected g ->
  exists W T, lct_cheriton_tarjan pick g = Ret (W, T) /\ listed_in_order T /\ minimum_spanning_tree g (map fst g) T W.
Proof. intros pick g Hp Hg Hn H2 Hc. rewrite lct_same. exact (C83_cheriton_tarjan pick g Hp Hg Hn H2 Hc). Qed.
Print Assumptions C83_cheriton_tarjan_leftist.

(** ** Examples *)
Example C29_any_ex : (forall x y, warc_ltb x y = true <-> less3 x y) /\
  exists h, th_init warc_ltb [(3, 1, 2); (1, 5, 2); (1, 4, 7); (2, 0, 0)] = Ret h /\ drain warc_ltb 4 h = [(1, 4, 7); (1, 5, 2); (2, 0, 0); (3, 1, 2)].
Proof. split; [exact warc_less|]. eexists. split; [vm_compute; reflexivity|vm_compute; reflexivity]. Qed.
Example C83_leftist_ex : lct_cheriton_tarjan (fun _ l => last l 0) c_ex = Ret (14, [(0, 3); (1, 2); (1, 3); (2, 5); (4, 5)]).
Proof. vm_compute. reflexivity. Qed.
