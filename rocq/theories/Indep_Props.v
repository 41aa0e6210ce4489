(** * Independent sets: the properties *)
From Coq Require Import ZArith List Lia Bool Permutation Sorting.Sorted.
From Verif Require Import Base Py Dict Lists Lists2 Gen Graph_Model Graph_Spec Graph_Proofs Graph_Proofs2 Graph_Props Trav_Model Trav_Proofs Cliq_Model Cliq_Spec Cliq_Proofs Cliq_Props MaxCliq_Model MaxCliq_Props Indep_Model Indep_Spec Indep_Proofs.
Import ListNotations.
Open Scope Z_scope.

Theorem C68_branch_and_bound g : undirected g -> loop_free g ->
  exists size c, is_branch_and_bound g = (size, c) /\ maximum_independent g size c.
Proof.
  intros Hg Hl. pose proof (is_branch_and_bound_ok g Hg Hl) as H. destruct (is_branch_and_bound g) as [size c]. exists size, c. split; [reflexivity|exact H].
Qed.

(** [pick s l] is the element of l that random.choice returns when s was chosen before. *)
Theorem C68_greedy pick ord g : (forall s l, l <> [] -> In (pick s l) l) -> (forall l, Permutation (ord l) l) -> undirected g -> loop_free g ->
  exists c, is_greedy pick ord g = Ret (Z.of_nat (length c), c) /\ maximal_independent_set g c /\ StronglySorted Z.lt c.
Proof. apply is_greedy_ok. Qed.

Theorem C68_culberson ord g : (forall l, Permutation (ord l) l) -> undirected g -> loop_free g ->
  exists c, culberson ord g = Ret (Z.of_nat (length c), c) /\ independent_set g c /\
    ((forall u v, ~ edge g u v) -> c = []) /\ ((exists u v, edge g u v) -> c <> []).
Proof. apply culberson_ok. Qed.

Lemma complement_indep g h : undirected g -> loop_free g -> (forall x, vertex h x <-> vertex g x) ->
  (forall x y, (vertex g x /\ vertex g y /\ x <> y /\ weight g x y = None -> weight h x y = Some 1) /\
               (~ (vertex g x /\ vertex g y /\ x <> y /\ weight g x y = None) -> weight h x y = None)) ->
  loop_free h /\ (forall x y, vertex g x -> vertex g y -> x <> y -> (edge h x y <-> ~ edge g x y)) /\ forall c, clique h c <-> independent_set g c.
Proof.
  intros Hg Hl Vh Wh. assert (E : forall x y, vertex g x -> vertex g y -> x <> y -> (edge h x y <-> ~ edge g x y)).
  { intros x y Vx Vy N. split.
    - intros (w & H) (w' & H'). rewrite (proj2 (Wh x y)) in H; [discriminate|]. rewrite H'. intros (_ & _ & _ & C). discriminate.
    - intros H. exists 1. apply Wh. repeat (split; [assumption|]). destruct (weight g x y) as [w|] eqn:W; [|reflexivity]. exfalso. apply H. exists w. exact W. }
  split; [intros u; apply Wh; tauto|]. split; [exact E|]. intros c. split; intros (N & V & A); (split; [exact N|]); (split; [intros u Hu; apply Vh, V, Hu|]).
  - intros u v Hu Hv. destruct (Z.eq_dec u v) as [->|D]; [intros (w & H); rewrite Hl in H; discriminate|]. apply E; [apply Vh, V, Hu|apply Vh, V, Hv|exact D|apply A; assumption].
  - intros u v Hu Hv D. apply E; [apply V, Hu|apply V, Hv|exact D|apply A; assumption].
Qed.

Theorem C68_maximum_independent_set g : undirected g -> loop_free g -> g <> [] ->
  exists size c, maximum_independent_set g = Ret (size, c) /\ maximum_independent g size c.
Proof.
  intros Hg Hl Ne. destruct (C55_complement g Hg) as (h & E & Uh & Vh & Wh). destruct (complement_indep g h Hg Hl Vh Wh) as (Lh & _ & K).
  destruct (C65_ostergard h Uh Lh) as (size & c & E' & A & B & C).
  { intros ->. destruct g as [|[v a] g']; [congruence|]. apply (Vh v). left. reflexivity. }
  exists size, c. unfold maximum_independent_set. rewrite E. cbn [bind]. split; [exact E'|]. split; [apply K, A|]. split; [exact B|]. intros c' Hc'. apply C, K, Hc'.
Qed.

(** The empty graph has the empty set for a maximum independent set, but the function raises. *)
Theorem C68_maximum_independent_set_empty_refuted : undirected [] /\ loop_free [] /\ maximum_independent [] 0 [] /\ maximum_independent_set [] = Raise IndexError.
Proof.
  split; [exact (history_undirected [])|]. split; [intros u; reflexivity|]. split; [|reflexivity]. split; [apply indep_nil|]. split; [reflexivity|].
  intros [|x c] (_ & V & _); [cbn; lia|]. destruct (V x (or_introl eq_refl)).
Qed.

Theorem C68_maximal_independent_sets g ord : undirected g -> loop_free g -> (forall r l, Permutation (ord r l) l) ->
  exists t L, maximal_independent_sets g ord = Ret t /\ yields t L /\ lists_once (maximal_independent_set g) L.
Proof.
  intros Hg Hl Ho. destruct (C55_complement g Hg) as (h & E & Uh & Vh & Wh). destruct (complement_indep g h Hg Hl Vh Wh) as (Lh & Eh & K).
  destruct (C64_tomita h ord Uh Lh Ho) as (L & Y & A & B & C). exists (tomita h ord), L. unfold maximal_independent_sets. rewrite E. cbn [bind]. split; [reflexivity|]. split; [exact Y|].
  assert (M : forall c, maximal_clique h c <-> maximal_independent_set g c).
  { assert (F : forall c v u, independent_set g c -> vertex g v -> ~ In v c -> In u c -> (edge h u v <-> ~ edge g u v)).
    { intros c v u (_ & V & _) Vv Nv Hu. apply Eh; [apply V, Hu|exact Vv|intros ->; contradiction]. }
    intros c. split; intros (H1 & H2).
    - apply K in H1. split; [exact H1|]. intros v Vv Nv. destruct (H2 v (proj2 (Vh v) Vv) Nv) as (u & Hu & H). exists u. split; [exact Hu|].
      destruct (weight g u v) as [w|] eqn:W; [exists w; exact W|]. exfalso. apply H, (F c v u H1 Vv Nv Hu). intros (w & H'). congruence.
    - split; [apply K, H1|]. intros v Vv Nv. apply Vh in Vv. destruct (H2 v Vv Nv) as (u & Hu & H). exists u. split; [exact Hu|]. intros H'. apply (F c v u H1 Vv Nv Hu) in H'. contradiction. }
  split; [intros c Hc; apply M, A, Hc|]. split; [intros c Hc; apply B, M, Hc|exact C].
Qed.

(** A path 1 - 2 - 3 - 4, a triangle 5, 6, 7 and a vertex 8 on its own. *)
Definition i_ex : graph := fold_left apply_op [OpAddEdges [(1, 2, 1); (2, 3, 1); (3, 4, 1); (5, 6, 1); (6, 7, 1); (7, 5, 1)]; OpAddVertex 8] empty_graph.

Example C68_example : undirected i_ex /\ loop_free i_ex /\ is_branch_and_bound i_ex = (4, [2; 5; 4; 8]) /\
  is_greedy (fun _ l => hd 0 l) (fun l => l) i_ex = Ret (4, [1; 3; 5; 8]) /\ culberson (fun l => l) i_ex = Ret (4, [1; 8; 3; 7]) /\
  maximum_independent_set i_ex = Ret (4, [7; 2; 4; 8]).
Proof.
  split; [apply history_undirected|]. split; [|vm_compute; auto].
  intros u. destruct (weight i_ex u u) as [w|] eqn:E; [|reflexivity]. exfalso. assert (V := edge_vertex i_ex u u (ex_intro _ w E)). vm_compute in V.
  repeat (destruct V as [<-|V]; [vm_compute in E; discriminate|]). exact V.
Qed.

(** [culberson] may return a set that is not maximal: with the edge 1 - 2 and the vertex 3, it leaves out 3. *)
Theorem C68_culberson_maximal_refuted : exists g ord c, (forall l, Permutation (ord l) l) /\ undirected g /\ loop_free g /\
  culberson ord g = Ret (Z.of_nat (length c), c) /\ ~ maximal_independent_set g c.
Proof.
  set (g := fold_left apply_op [OpAddEdge 1 2 1; OpAddVertex 3] empty_graph).
  exists g, (fun l => l), [2]. split; [reflexivity|]. split; [apply history_undirected|]. split.
  { intros u. destruct (weight g u u) as [w|] eqn:E; [|reflexivity]. exfalso. assert (V := edge_vertex g u u (ex_intro _ w E)). vm_compute in V.
    repeat (destruct V as [<-|V]; [vm_compute in E; discriminate|]). exact V. }
  split; [reflexivity|].
  intros (_ & H). destruct (H 3) as (u & Hu & w & E); [vm_compute; auto 10|intros [|[]]; discriminate|]. destruct Hu as [<-|[]]; vm_compute in E; discriminate.
Qed.

Print Assumptions C68_branch_and_bound.
Print Assumptions C68_greedy.
Print Assumptions C68_culberson.
Print Assumptions C68_maximum_independent_set.
Print Assumptions C68_maximal_independent_sets.
