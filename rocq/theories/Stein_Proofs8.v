(** * Proofs about Steiner trees: terminals that are not connected *)
From Coq Require Import ZArith List Lia Bool Permutation Sorting.Sorted.
From Verif Require Import Base Py Dict Lists Lists2 Graph_Model Graph_Spec Graph_Proofs Graph_Proofs2 Graph_Props UF_Model UF_Spec UF_Proofs Trav_Model Trav_Spec Trav_Proofs Trav_Proofs2
  Paths_Model Paths_Spec Paths_Props Paths_Proofs6 MST_Model MST_Spec MST_Proofs MST_Proofs2 MST_Props Color_Model Kor_Model Kor_Proofs Stein_Model Stein_Spec Stein_Proofs Stein_Proofs2 Stein_Proofs3
  Stein_Proofs4 Stein_Proofs7.
Import ListNotations.
Open Scope Z_scope.

(** ** The terminals outside the tree do not matter for the improvement *)
Lemma ddel_keys {V} (d : list (Z * V)) k x : In x (map fst (ddel d k)) -> In x (map fst d).
Proof. induction d as [|(y, w) d IH]; cbn [ddel map fst In]; [tauto|]. destruct (y =? k); cbn [map fst In]; tauto. Qed.
Lemma delete_vertex_sub g u x : vertex (delete_vertex g u) x -> vertex g x.
Proof. unfold vertex, delete_vertex. destruct (dmem g u); [|auto]. rewrite map_map. cbn [fst]. apply ddel_keys. Qed.
Lemma delete_all_sub : forall l g x, vertex (fold_left delete_vertex l g) x -> vertex g x.
Proof. induction l as [|u l IH]; intros g x H; [exact H|]. apply (delete_vertex_sub g u), IH, H. Qed.
Lemma prune_ext ord R1 R2 : (forall l, Permutation (ord l) l) -> forall fuel t, (forall v, vertex t v -> mem v R1 = mem v R2) -> prune ord R1 fuel t = prune ord R2 fuel t.
Proof.
  intros Ho. induction fuel as [|f IH]; intros t H; [reflexivity|]. cbn [prune].
  assert (E : filter (fun leaf => negb (mem leaf R1)) (leaves ord t) = filter (fun leaf => negb (mem leaf R2)) (leaves ord t)).
  { apply filter_ext_in. intros v Iv. rewrite H; [reflexivity|]. unfold leaves in Iv. apply (Permutation_in _ (Ho _)) in Iv. apply in_map_iff in Iv as (ua & <- & I). apply filter_In in I as (I & _). apply in_map, I. }
  cbv zeta. rewrite E. clear E. destruct (filter (fun leaf => negb (mem leaf R2)) (leaves ord t)) as [|x l]; [reflexivity|]. apply IH. intros v Hv. apply H. apply (delete_all_sub (x :: l)), Hv.
Qed.
Lemma improve_ext ord g es W R1 R2 : (forall l, Permutation (ord l) l) -> undirected g -> total_weight g es W -> (forall v, ends es v -> mem v R1 = mem v R2) -> improve ord g es R1 = improve ord g es R2.
Proof.
  intros Ho Hg TW H. unfold improve.
  set (V := fold_left (fun s uv => set_add (set_add s (fst uv)) (snd uv)) es []).
  assert (IV : forall x, In x (ord V) -> ends es x).
  { intros x I. apply (Permutation_in _ (Ho _)) in I. apply ends_fold in I as [[]|I]. exact I. }
  destruct (C55_induced_subgraph ord g (ord V) Ho Hg) as (h & Eh & Hh & Vh & _).
  { intros x I. apply IV in I as (y & [I|I]); apply (tw_edge g es W _ _ TW) in I as (w & Hw); destruct Hg as (_ & _ & C & Sy); apply (C y x); exists w; [rewrite Sy|]; exact Hw. }
  rewrite Eh. cbn [bind]. rewrite C63_prim_default_root. destruct (map fst h) as [|r ks] eqn:Ek; [reflexivity|].
  assert (Hr : vertex h r) by (unfold vertex; rewrite Ek; left; reflexivity). destruct (C63_prim h r Hh Hr) as (W1 & T1 & E1 & _ & M). rewrite E1. cbn [bind].
  destruct (bfs_list_ok h Hh r Hr) as (V0 & _ & N0 & H0 & V0h). destruct (M V0) as ((S1 & _) & _); [split; assumption|].
  unfold delete_nonterminal_leaves. set (tree := add_edges empty_graph _). rewrite (prune_ext ord R1 R2 Ho (S (length tree)) tree); [reflexivity|].
  intros v Hv. apply H, IV, Vh. unfold tree in Hv. destruct (add_edges_sub (fun _ _ => 1) T1 ltac:(reflexivity)) as (_ & Vt & _). apply Vt in Hv as (y & [I|I]); destruct (S1 _ _ I) as (A & B & _); apply V0h; assumption.
Qed.

Section Unconnected.
  Context (g : graph) (r0 : Z) (rest R : list Z) (ord : list Z -> list Z).
  Notation All := (r0 :: rest).
  Hypothesis Hg : undirected g.
  Hypothesis Hn : nonneg g.
  Hypothesis NA : NoDup All.
  Hypothesis VA : forall r, In r All -> vertex g r.
  Hypothesis NR : NoDup R.
  Hypothesis HR : forall r, In r R <-> In r All /\ reachable g r0 r.
  Hypothesis Ho : forall l, Permutation (ord l) l.

  Lemma shortest_all : exists sp, shortest_from g All = Ret sp /\ forall u, In u All -> exists r, dijkstra g u = Ret r /\ dget sp u = Some r.
  Proof using Hg Hn VA.
    assert (G : forall l sp0, (forall u, In u l -> vertex g u) -> exists sp, foldM (fun sp u => do r <- dijkstra g u; Ret (dset sp u r)) l sp0 = Ret sp /\
      forall u, (In u l -> exists r, dijkstra g u = Ret r /\ dget sp u = Some r) /\ (~ In u l -> dget sp u = dget sp0 u)).
    { clear - Hg Hn. induction l as [|x l IH]; intros sp0 Hl; [exists sp0; split; [reflexivity|]; intros u; split; [intros []|reflexivity]|].
      destruct (dij_ok g Hg Hn x (Hl x (or_introl eq_refl))) as (dist & prev & E & _). cbn [foldM]. rewrite E. cbn [bind].
      destruct (IH (dset sp0 x (dist, prev))) as (sp & Es & Hs); [intros u Iu; apply Hl; right; exact Iu|]. exists sp. split; [exact Es|].
      intros u. destruct (Hs u) as (H1 & H2). split.
      - intros Iu. destruct (in_dec Z.eq_dec u l) as [J|J]; [apply H1, J|]. destruct Iu as [<-|Iu]; [|contradiction]. exists (dist, prev). split; [exact E|].
        rewrite H2 by exact J. apply dget_dset_same.
      - intros Nu. rewrite H2 by (intros J; apply Nu; right; exact J). apply dget_dset_other. intros ->. apply Nu. left. reflexivity. }
    destruct (G All [] VA) as (sp & E & H). exists sp. split; [exact E|]. intros u Iu. apply H, Iu.
  Qed.

  Context (sp : list (Z * (dists * prevs))).
  Hypothesis Hsp : forall u, In u All -> exists r, dijkstra g u = Ret r /\ dget sp u = Some r.
  Definition xd (x y : Z) : ext := match dget sp x with Some (dist, _) => match dget dist y with Some e => e | None => None end | None => None end.
  Definition xm (x y : Z) : ext := xd (Z.min x y) (Z.max x y).
  Lemma xm_sym x y : xm x y = xm y x. Proof using Type. unfold xm. rewrite Z.min_comm, Z.max_comm. reflexivity. Qed.

  Lemma xd_ok u v : In u All -> In v All -> exists dist prev, dget sp u = Some (dist, prev) /\ dget dist v = Some (xd u v) /\
    (reachable g u v -> xd u v = Some (dd g u v)) /\ (forall w, xd u v = Some w -> reachable g u v).
  Proof using Hg Hn VA Hsp.
    intros Iu Iv. destruct (Hsp u Iu) as ((dist, prev) & Ed & Es). exists dist, prev. split; [exact Es|].
    destruct (C59_dijkstra g u Hg (VA u Iu) Hn) as (dist' & prev' & Ed' & X & _). rewrite Ed in Ed'. injection Ed' as <- <-. destruct (X v (VA v Iv)) as (d & Edv & Hd).
    assert (E : xd u v = d) by (unfold xd; rewrite Es, Edv; reflexivity). rewrite E. split; [exact Edv|]. split.
    - intros Rv. destruct (dij_ok g Hg Hn u (VA u Iu)) as (dist2 & prev2 & Ed2 & _ & H2). rewrite Ed in Ed2. injection Ed2 as <- <-. destruct (H2 v Rv) as (H3 & _). congruence.
    - intros w ->. apply (reach_wwalk g u). exists w. apply Hd.
  Qed.
  Lemma xd_sym u v : In u All -> In v All -> xd u v = xd v u.
  Proof using Hg Hn VA Hsp.
    intros Iu Iv. destruct (xd_ok u v Iu Iv) as (_ & _ & _ & _ & A & B), (xd_ok v u Iv Iu) as (_ & _ & _ & _ & A' & B').
    destruct (xd u v) as [w|] eqn:E.
    - assert (Ruv := B w eq_refl). assert (Rvu := reach_sym g Hg _ _ Ruv). rewrite (A' Rvu), (A Ruv). f_equal. apply (dd_sym g Hg Hn u (VA u Iu)); [exists O; constructor|exact Ruv].
    - destruct (xd v u) as [w|] eqn:E'; [|reflexivity]. assert (Rvu := B' w eq_refl). assert (Ruv := reach_sym g Hg _ _ Rvu). specialize (A Ruv). discriminate A.
  Qed.
  Lemma xm_xd u v : In u All -> In v All -> xm u v = xd u v.
  Proof using Hg Hn VA Hsp. intros Iu Iv. unfold xm. destruct (Z.le_gt_cases u v); [rewrite Z.min_l, Z.max_r by lia; reflexivity|]. rewrite Z.min_r, Z.max_l by lia. apply xd_sym; assumption. Qed.

  Lemma network_eq : distance_network sp All = Ret (net xm (combos All)).
  Proof using Hg Hn VA Hsp.
    unfold distance_network, net. rewrite (mapM_ret _ (fun e => (fst e, snd e, xm (fst e) (snd e)))); [reflexivity|].
    intros (u, v) I. cbn [fst snd]. apply combos_In in I as (Iu & Iv). destruct (xd_ok u v Iu Iv) as (dist & prev & E1 & E2 & _). unfold dgetM. rewrite E1. cbn [bind fst]. rewrite E2. cbn [bind]. rewrite xm_xd by assumption. reflexivity.
  Qed.

  Lemma R_in r : In r R -> In r All. Proof using HR. intros I. apply HR, I. Qed.
  Lemma R_reach r r' : In r R -> In r' R -> reachable g r r'.
  Proof using HR Hg. intros I I'. eapply reach_trans; [apply (reach_sym g Hg), (proj1 (HR r) I)|apply HR, I']. Qed.
  Lemma known_R : known g R sp.
  Proof using All.
    intros u v Iu Ru. assert (Ia := R_in u Iu). destruct (dij_ok g Hg Hn u (VA u Ia)) as (dist & prev & Ed & Rt & Hd). destruct (Hd v Ru) as (E1 & _ & es & a & C & TW & L & Ea).
    exists dist, prev, es, a. destruct (Hsp u Ia) as (r & Er & Eg). rewrite Ed in Er. injection Er as <-. auto 10.
  Qed.
  Lemma net_R x y : In x R -> In y R -> x <> y -> weight (finite (net xm (combos All))) x y = Some (dd g x y).
  Proof using All.
    intros Ix Iy D. rewrite (proj1 (net_finite xm (combos All) xm_sym x y)) by (apply combos_all; try apply R_in; assumption). rewrite xm_xd by (apply R_in; assumption).
    destruct (xd_ok x y (R_in x Ix) (R_in y Iy)) as (_ & _ & _ & _ & A & _). apply A, R_reach; assumption.
  Qed.

  Lemma net_component : (2 <= length All)%nat -> vertex (finite (net xm (combos All))) r0 /\ component_of (finite (net xm (combos All))) r0 R.
  Proof using All.
    intros L2. set (N := finite (net xm (combos All))). split.
    - apply net_vertex; [exact xm_sym|]. destruct rest as [|r1 l]; [cbn in L2; lia|]. exists r1. left. cbn [combos map app]. left. reflexivity.
    - split; [exact NR|]. intros v. split.
      + intros Iv. destruct (Z.eq_dec r0 v) as [<-|D]; [exists O; constructor|]. exists 1%nat. apply (walk_S _ _ 0 r0); [constructor|]. exists (dd g r0 v). apply net_R; [|exact Iv|exact D].
        apply HR. split; [left; reflexivity|exists O; constructor].
      + intros (n & Wk). induction Wk as [|n u v _ IH (w & Ew)]; [apply HR; split; [left; reflexivity|exists O; constructor]|].
        unfold N in Ew. destruct (adj_dec (combos All) u v) as [A|A]; [|rewrite (proj2 (net_finite xm (combos All) xm_sym u v) A) in Ew; discriminate].
        rewrite (proj1 (net_finite xm (combos All) xm_sym u v) A) in Ew. assert (In u All /\ In v All) as (Iu & Iv) by (destruct A as [I|I]; apply combos_In in I; tauto).
        rewrite xm_xd in Ew by assumption. destruct (xd_ok u v Iu Iv) as (_ & _ & _ & _ & _ & B). apply HR. split; [exact Iv|]. eapply reach_trans; [apply HR, IH|apply (B w Ew)].
  Qed.
  Lemma net_tree : (2 <= length All)%nat -> exists WM TM, xprim (net xm (combos All)) = Ret (Some WM, TM) /\ listed_in_order TM /\ minimum_spanning_tree (finite (net xm (combos All))) R TM WM.
  Proof using All.
    intros L2. destruct (net_component L2) as (Hv & Hc). destruct (C63_prim _ r0 (net_undirected xm (combos All) xm_sym) Hv) as (W & T & E & Ls & M). exists W, T. split; [|split; [exact Ls|apply M, Hc]].
    apply (net_prim xm (combos All) xm_sym). rewrite C63_prim_default_root. change (map fst (finite (net xm (combos All)))) with (dkeys (finite (net xm (combos All)))). rewrite finite_keys.
    assert (F : exists ks, dkeys (net xm (combos All)) = r0 :: ks) by (destruct rest as [|r1 l]; [cbn in L2; lia|]; cbn [combos map app]; unfold net; cbn [map fst snd]; apply first_key).
    destruct F as (ks & ->). exact E.
  Qed.
End Unconnected.

Theorem network_some ord g r0 rest R : (forall l, Permutation (ord l) l) -> undirected g -> nonneg g -> NoDup (r0 :: rest) -> (forall r, In r (r0 :: rest) -> vertex g r) ->
  NoDup R -> (forall r, In r R <-> In r (r0 :: rest) /\ reachable g r0 r) -> (2 <= length R)%nat ->
  exists W T, distance_network_heuristic ord g (r0 :: rest) = Ret (W, T) /\ steiner_tree g R T W /\ listed_in_order T /\ (forall v, leaf T v -> In v R) /\
    forall T' W', steiner_tree g R T' W' -> Z.of_nat (length R) * W <= 2 * (Z.of_nat (length R) - 1) * W'.
Proof.
  intros Ho Hg Hn NA VA NR HR LR. unfold distance_network_heuristic. destruct (shortest_all g r0 rest Hg Hn VA) as (sp & E & Hsp). rewrite E. cbn [bind].
  rewrite (network_eq g r0 rest Hg Hn VA sp Hsp). cbn [bind].
  assert (L2 : (2 <= length (r0 :: rest))%nat) by (eapply Nat.le_trans; [exact LR|]; apply NoDup_incl_length; [exact NR|]; intros r I; apply HR, I).
  destruct (net_tree g r0 rest R ord Hg Hn NA VA NR HR Ho sp Hsp L2) as (WM & TM & EM & Ls & MT). rewrite EM. cbn [bind].
  assert (VR : forall r, In r R -> vertex g r) by (intros r I; apply VA, HR, I).
  destruct (heuristic_tail g R Hg Hn NR LR VR (R_reach g r0 rest R Hg HR) _ sp WM TM ord Ho (known_R g r0 rest R ord Hg Hn NA VA NR HR Ho sp Hsp) (net_R g r0 rest R ord Hg Hn NA VA NR HR Ho sp Hsp) Ls MT)
    as (h & TS & WS & W & T & E1 & E2 & TW & En & E3 & St & Lo & Lf & B).
  rewrite E1. cbn [bind]. rewrite E2. cbn [bind]. exists W, T. split; [|auto]. rewrite <- E3. apply (improve_ext ord g TS WS); [exact Ho|exact Hg|exact TW|].
  intros v Ev. destruct (En v Ev) as (r & Ir & Rv). assert (Q : reachable g r0 v) by (eapply reach_trans; [apply HR, Ir|exact Rv]).
  apply eq_true_iff_eq. rewrite !Trav_Proofs.mem_In, HR. tauto.
Qed.

Theorem network_none ord g r0 rest : (forall l, Permutation (ord l) l) -> undirected g -> nonneg g -> NoDup (r0 :: rest) -> (forall r, In r (r0 :: rest) -> vertex g r) ->
  (forall r, In r rest -> ~ reachable g r0 r) -> distance_network_heuristic ord g (r0 :: rest) = Raise StopIteration.
Proof.
  intros Ho Hg Hn NA VA HR. unfold distance_network_heuristic. destruct (shortest_all g r0 rest Hg Hn VA) as (sp & E & Hsp). rewrite E. cbn [bind].
  rewrite (network_eq g r0 rest Hg Hn VA sp Hsp). cbn [bind]. destruct rest as [|r1 l]; [reflexivity|].
  assert (HR' : forall r, In r [r0] <-> In r (r0 :: r1 :: l) /\ reachable g r0 r).
  { intros r. split; [intros [<-|[]]; split; [left; reflexivity|exists O; constructor]|]. intros ([<-|I] & Q); [left; reflexivity|]. destruct (HR r I Q). }
  assert (NR : NoDup [r0]) by (constructor; [intros []|constructor]).
  destruct (net_tree g r0 (r1 :: l) [r0] ord Hg Hn NA VA NR HR' Ho sp Hsp) as (WM & TM & EM & Ls & ((_ & _ & L) & _)); [cbn; lia|]. rewrite EM. cbn [bind].
  destruct TM; [reflexivity|cbn in L; lia].
Qed.
