(** * Maximum cliques (C65) *)
From Coq Require Import ZArith List Lia Bool Permutation.
From Verif Require Import Base Py Dict Lists Lists2 Graph_Model Graph_Spec Graph_Proofs Trav_Model Cliq_Model Cliq_Spec Cliq_Proofs Cliq_Props MaxCliq_Model MaxCliq_Proofs MaxCliq_Proofs2 MaxCliq_Proofs3.
Import ListNotations.
Open Scope Z_scope.

(** [ord k l]: the order in which the vertex set l is traversed when k vertices remain. *)
Theorem C65_pardalos g ord : undirected g -> (forall k l, Permutation (ord k l) l) ->
  exists size c, pardalos g ord = Ret (size, c) /\ maximum_clique g size c.
Proof. apply pardalos_ok. Qed.

Theorem C65_pardalos_binary g ord : undirected g -> (forall k l, Permutation (ord k l) l) ->
  exists size c, pardalos_binary g ord = Ret (size, c) /\ maximum_clique g size c.
Proof. intros Hg Ho. rewrite pardalos_binary_same by assumption. apply pardalos_ok; assumption. Qed.

Theorem C65_ostergard g : undirected g -> loop_free g -> g <> [] ->
  exists size c, ostergard g = Ret (size, c) /\ maximum_clique g size c.
Proof. apply ostergard_ok. Qed.

Theorem C65_ostergard_binary g : undirected g -> loop_free g -> g <> [] ->
  exists size c, ostergard_binary g = Ret (size, c) /\ maximum_clique g size c.
Proof. intros Hg Hl Ne. rewrite ostergard_binary_same by assumption. apply ostergard_ok; assumption. Qed.

(** The two forms of each algorithm return the same clique. *)
Theorem C65_binary_same g ord : undirected g -> loop_free g -> g <> [] -> (forall k l, Permutation (ord k l) l) ->
  pardalos_binary g ord = pardalos g ord /\ ostergard_binary g = ostergard g.
Proof. intros Hg Hl Ne Ho. split; [apply pardalos_binary_same|apply ostergard_binary_same]; assumption. Qed.

Theorem C65_ostergard_empty : ostergard [] = Raise IndexError.
Proof. reflexivity. Qed.

(** Every vertex has a weight and none is negative. *)
Theorem C65_maximum_weight_clique g ord wm wt : undirected g -> loop_free g -> (forall l, Permutation (ord l) l) ->
  (forall v, vertex g v -> dget wm v = Some (wt v) /\ 0 <= wt v) ->
  exists w c, maximum_weight_clique g ord (Some wm) = Ret (w, c) /\ maximum_weight_clique_of g wt w c.
Proof.
  intros Hg Hl Ho Hw. destruct (maximum_weight_clique_ok g ord wm Hg Hl Ho) as (w & c & E & A & B & C).
  - intros v Hv. exists (wt v). apply Hw, Hv.
  - exists w, c. split; [exact E|].
    assert (X : forall c, clique g c -> weigh (fun v => match dget wm v with Some w => w | None => 0 end) c = weigh wt c).
    { intros c0 (_ & V & _). clear -Hw V. induction c0 as [|x c0 IH]; [reflexivity|]. unfold weigh in *. cbn [fold_right]. rewrite IH by (intros u Hu; apply V; right; exact Hu).
      destruct (Hw x (V x (or_introl eq_refl))) as [-> _]. reflexivity. }
    split; [exact A|]. split; [rewrite <- (X c A); exact B|]. intros c' Hc'. rewrite <- (X c' Hc'). apply C, Hc'.
Qed.

(** Without a weight map the vertices are their own weights. *)
Theorem C65_maximum_weight_clique_default g ord : undirected g -> loop_free g -> (forall l, Permutation (ord l) l) ->
  (forall v, vertex g v -> 0 <= v) ->
  exists w c, maximum_weight_clique g ord None = Ret (w, c) /\ maximum_weight_clique_of g (fun v => v) w c.
Proof.
  intros Hg Hl Ho Hv. change (maximum_weight_clique g ord None) with (maximum_weight_clique g ord (Some (map (fun u => (u, u)) (dkeys g)))).
  apply C65_maximum_weight_clique; [exact Hg|exact Hl|exact Ho|]. intros v V. split; [|apply Hv, V].
  apply dget_In; [|apply in_map_iff; exists v; split; [reflexivity|exact V]].
  unfold dkeys at 1. rewrite map_map. cbn [fst]. rewrite map_id. apply Hg.
Qed.

Theorem C65_maximum_weight_clique_missing g ord wm v : vertex g v -> dget wm v = None -> maximum_weight_clique g ord (Some wm) = Raise KeyError.
Proof.
  intros Hv E. unfold maximum_weight_clique. destruct (forallb (dmem wm) (dkeys g)) eqn:F; [|reflexivity].
  exfalso. rewrite forallb_forall in F. specialize (F v Hv). unfold dmem in F. rewrite E in F. discriminate.
Qed.

(** With a negative weight the answer can be wrong: the edge 1 - 2 with weights a and b < 0 < a + b
    gives the clique [1, 2] of weight a + b, less than the weight of [1]. *)
Definition m_edge : graph := add_edges empty_graph [(1, 2, 1)].
Theorem C65_maximum_weight_clique_negative_refuted : forall a b, b < 0 < a + b ->
  undirected m_edge /\ loop_free m_edge /\ maximum_weight_clique m_edge (fun l => l) (Some [(1, a); (2, b)]) = Ret (a + b, [1; 2]) /\
  clique m_edge [1] /\ weigh (fun v => if v =? 1 then a else b) [1] = a /\ a + b < a.
Proof.
  intros a b [Hb Hab]. split; [apply (history_undirected [OpAddEdges [(1, 2, 1)]])|]. split.
  { intros u. destruct (Z.eq_dec u 1) as [->|]; [reflexivity|]. destruct (Z.eq_dec u 2) as [->|]; [reflexivity|].
    unfold weight. replace (dget m_edge u) with (@None (list (Z * Z))); [reflexivity|]. symmetry. apply dget_None. vm_compute. intuition congruence. }
  split.
  { unfold maximum_weight_clique. cbn -[Z.leb Z.add Z.ltb]. rewrite ?Z.add_0_r.
    replace (b <=? a) with true by (symmetry; apply Z.leb_le; lia). cbn -[Z.leb Z.add Z.ltb]. rewrite ?Z.add_0_r.
    replace (0 <? b) with false by (symmetry; apply Z.ltb_ge; lia). cbn -[Z.leb Z.add Z.ltb]. rewrite ?Z.add_0_r.
    replace (a + b <=? 0) with false by (symmetry; apply Z.leb_gt; lia). cbn -[Z.leb Z.add Z.ltb]. rewrite ?Z.add_0_r.
    replace (a <=? 0) with false by (symmetry; apply Z.leb_gt; lia). cbn -[Z.leb Z.add Z.ltb]. rewrite ?Z.add_0_r.
    replace (0 <? a + b) with true by (symmetry; apply Z.ltb_lt; lia). reflexivity. }
  split; [|split; [cbn; lia|lia]]. split; [repeat constructor; intros []|]. split; [intros u [<-|[]]; left; reflexivity|].
  intros u v [<-|[]] [<-|[]] N. congruence.
Qed.
Example C65_negative_ex : -3 < 0 < 5 + -3 /\ maximum_weight_clique m_edge (fun l => l) (Some [(1, 5); (2, -3)]) = Ret (2, [1; 2]).
Proof. split; [lia|reflexivity]. Qed.

(** For any weights, negative ones too, the answer is a clique with its own weight, which is not
    negative: the empty clique is the least that is returned. *)
Theorem C65_maximum_weight_clique_any_weights g ord wm wt : undirected g -> loop_free g -> (forall l, Permutation (ord l) l) ->
  (forall v, vertex g v -> dget wm v = Some (wt v)) ->
  exists w c, maximum_weight_clique g ord (Some wm) = Ret (w, c) /\ clique g c /\ w = weigh wt c /\ 0 <= w.
Proof.
  intros Hg Hl Ho Hw. destruct (maximum_weight_clique_sound g ord wm Hg Hl Ho) as (w & c & E & A & B & C).
  - intros v Hv. exists (wt v). apply Hw, Hv.
  - exists w, c. split; [exact E|]. split; [exact A|]. split; [|exact C]. rewrite B.
    destruct A as (_ & V & _). clear -Hw V. induction c as [|x c IH]; [reflexivity|]. unfold weigh in *. cbn [fold_right]. rewrite IH by (intros u Hu; apply V; right; exact Hu).
    rewrite (Hw x (V x (or_introl eq_refl))). reflexivity.
Qed.

(** ** The hypotheses can be met *)
Definition m_ex : graph := add_edges c_ex [(1, 4, 1); (2, 4, 1); (7, 5, 1)].
Lemma m_ex_ok : undirected m_ex.
Proof. apply (history_undirected [OpAddVertex 7; OpAddEdges [(1, 2, 1); (1, 3, 1); (2, 3, 1); (3, 4, 1); (4, 5, 1); (5, 3, 1)]; OpAddEdges [(1, 4, 1); (2, 4, 1); (7, 5, 1)]]). Qed.
Lemma m_ex_loop_free : loop_free m_ex.
Proof.
  intros u. destruct (Z.eq_dec u 1) as [->|]; [reflexivity|]. destruct (Z.eq_dec u 2) as [->|]; [reflexivity|]. destruct (Z.eq_dec u 3) as [->|]; [reflexivity|].
  destruct (Z.eq_dec u 4) as [->|]; [reflexivity|]. destruct (Z.eq_dec u 5) as [->|]; [reflexivity|]. destruct (Z.eq_dec u 7) as [->|]; [reflexivity|].
  unfold weight. replace (dget m_ex u) with (@None (list (Z * Z))); [reflexivity|]. symmetry. apply dget_None. vm_compute. intuition congruence.
Qed.
Example C65_ex : undirected m_ex /\ loop_free m_ex /\ m_ex <> [] /\
  pardalos m_ex (fun _ l => rev l) = Ret (4, [4; 3; 2; 1]) /\ ostergard m_ex = Ret (4, [1; 2; 3; 4]) /\
  maximum_weight_clique m_ex (fun l => l) None = Ret (12, [4; 3; 5]) /\
  maximum_weight_clique m_ex (fun l => l) (Some [(1, 4); (2, 0); (3, 3); (4, 2); (5, 6); (7, 4)]) = Ret (11, [5; 3; 4]).
Proof. split; [apply m_ex_ok|]. split; [apply m_ex_loop_free|]. split; [discriminate|]. vm_compute. auto. Qed.

Print Assumptions C65_pardalos.
Print Assumptions C65_pardalos_binary.
Print Assumptions C65_ostergard.
Print Assumptions C65_ostergard_binary.
Example C65_any_ex : undirected m_ex /\ loop_free m_ex /\
  maximum_weight_clique m_ex (fun l => l) (Some [(1, -4); (2, 5); (3, 3); (4, -1); (5, 2); (7, -4)]) = Ret (4, [2; 3; 1]).
Proof. split; [apply m_ex_ok|]. split; [apply m_ex_loop_free|]. vm_compute. reflexivity. Qed.

Print Assumptions C65_maximum_weight_clique.
Print Assumptions C65_maximum_weight_clique_any_weights.
