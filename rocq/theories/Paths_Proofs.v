(** * The invariant of Dijkstra's algorithm *)
From Coq Require Import ZArith List Lia Bool Permutation Sorting.Sorted.
From Verif Require Import Base Py Dict Lists2 Gen Graph_Model Graph_Spec Graph_Proofs Trav_Model Trav_Proofs
  Trav_Proofs2 Paths_Model Paths_Spec.
Import ListNotations.
Open Scope Z_scope.

Lemma ltx_true x d : ltx x d = true <-> match d with None => True | Some y => x < y end.
Proof. destruct d as [y|]; cbn; [apply Z.ltb_lt|tauto]. Qed.

Lemma ltx_false x d : ltx x d = false <-> exists y, d = Some y /\ y <= x.
Proof.
  destruct d as [y|]; cbn.
  - rewrite Z.ltb_ge. split; [eauto|]. intros (z & E & H). injection E as ->. exact H.
  - split; [discriminate|]. intros (y & E & _). discriminate.
Qed.

Section Dijkstra.
  Context (g : graph) (s : Z).
  Hypothesis Hg : undirected g.
  Hypothesis Hs : vertex g s.
  Hypothesis Hn : nonneg g.

  (** D: estimates, P: predecessors, S: settled vertices with their distances, in order *)
  Record J (D P : Z -> option Z) (S : list (Z * Z)) : Prop := {
    j_s : D s = Some 0 /\ P s = None;
    j_w : forall v d, D v = Some d -> wwalk g s v d /\ vertex g v;
    j_nd : NoDup (map fst S);
    j_S : forall u d, In (u, d) S -> D u = Some d /\ forall W, wwalk g s u W -> d <= W;
    j_e : forall u d v c, In (u, d) S -> weight g u v = Some c -> exists dv, D v = Some dv /\ dv <= d + c;
    j_le : forall u d y dy, In (u, d) S -> D y = Some dy -> ~ In y (map fst S) -> d <= dy;
    j_p : forall v p, P v = Some p -> exists dp c, In (p, dp) S /\ weight g p v = Some c /\ D v = Some (dp + c);
    j_pn : forall v d, D v = Some d -> P v = None -> v = s;
    j_ord : forall S1 v d S2, S = S1 ++ (v, d) :: S2 -> v <> s -> exists p, P v = Some p /\ In p (map fst S1);
    j_so : StronglySorted (fun x y => snd x <= snd y) S }.

  Lemma J_init D P : D s = Some 0 -> (forall v, v <> s -> D v = None) -> (forall v, P v = None) -> J D P [].
  Proof.
    intros H1 H2 H3. constructor; cbn; auto; try tauto.
    - intros v d H. destruct (Z.eq_dec v s) as [->|Hv]; [|rewrite H2 in H by exact Hv; discriminate].
      rewrite H1 in H. injection H as <-. split; [constructor|exact Hs].
    - constructor.
    - intros v p H. rewrite H3 in H. discriminate.
    - intros v d H _. destruct (Z.eq_dec v s) as [->|Hv]; [reflexivity|rewrite H2 in H by exact Hv; discriminate].
    - intros [|x S1] v d S2 E; discriminate.
    - constructor.
  Qed.

  (** every walk ends in a settled vertex or is no shorter than some estimate *)
  Lemma J_frontier D P S v W : J D P S -> wwalk g s v W ->
    (exists d, In (v, d) S /\ d <= W) \/ (exists y dy, D y = Some dy /\ ~ In y (map fst S) /\ dy <= W).
  Proof.
    intros HJ Hw. induction Hw as [|u v W c Hw IH Hc].
    - destruct (in_dec Z.eq_dec s (map fst S)) as [H|H].
      + left. apply in_map_iff in H. destruct H as ([x d] & E & H). cbn in E. subst x. exists d. split; [exact H|].
        destruct (j_S _ _ _ HJ s d H) as [_ K]. apply K. constructor.
      + right. exists s, 0. split; [apply (j_s _ _ _ HJ)|]. split; [exact H|lia].
    - pose proof (Hn _ _ _ Hc) as Hc0. destruct IH as [(d & Hd & Hle)|(y & dy & A & B & C)].
      + destruct (j_e _ _ _ HJ u d v c Hd Hc) as (dv & Ev & Hv).
        destruct (in_dec Z.eq_dec v (map fst S)) as [H|H].
        * left. apply in_map_iff in H. destruct H as ([x d'] & E & H). cbn in E. subst x. exists d'. split; [exact H|].
          destruct (j_S _ _ _ HJ v d' H) as [E _]. rewrite E in Ev. injection Ev as <-. lia.
        * right. exists v, dv. split; [exact Ev|]. split; [exact H|lia].
      + right. exists y, dy. split; [exact A|]. split; [exact B|lia].
  Qed.

  (** the values of the neighbours of u after the scan *)
  Definition scanned (D P D' P' : Z -> option Z) (u w : Z) : Prop :=
    forall v, match weight g u v with
    | Some c => if ltx (w + c) (D v) then D' v = Some (w + c) /\ P' v = Some u else D' v = D v /\ P' v = P v
    | None => D' v = D v /\ P' v = P v
    end.

  Lemma J_step D P S D' P' u w : J D P S -> ~ In u (map fst S) -> D u = Some w ->
    (forall y dy, D y = Some dy -> ~ In y (map fst S) -> w <= dy) -> scanned D P D' P' u w ->
    J D' P' (S ++ [(u, w)]).
  Proof.
    intros HJ Hu Eu Hmin Hsc.
    assert (Hsh : forall W, wwalk g s u W -> w <= W).
    { intros W HW. destruct (J_frontier D P S u W HJ HW) as [(d & Hd & _)|(y & dy & A & B & C)].
      - destruct Hu. apply in_map_iff. exists (u, d). auto.
      - specialize (Hmin y dy A B). lia. }
    assert (HinS : forall v d, In (v, d) (S ++ [(u, w)]) -> D v = Some d /\ (forall W, wwalk g s v W -> d <= W) /\ wwalk g s v d).
    { intros v d Hv. apply in_app_iff in Hv. destruct Hv as [Hv|[E|[]]].
      - destruct (j_S _ _ _ HJ v d Hv) as [A B]. split; [exact A|]. split; [exact B|]. apply (j_w _ _ _ HJ v d A).
      - injection E as <- <-. split; [exact Eu|]. split; [exact Hsh|]. apply (j_w _ _ _ HJ u w Eu). }
    destruct (j_w _ _ _ HJ u w Eu) as [Wu Vu].
    (* settled values do not change *)
    assert (Hkeep : forall v d, In (v, d) (S ++ [(u, w)]) -> D' v = Some d /\ P' v = P v).
    { intros v d Hv. destruct (HinS v d Hv) as (A & B & _). specialize (Hsc v). destruct (weight g u v) as [c|] eqn:Ec.
      - destruct (ltx (w + c) (D v)) eqn:El.
        + rewrite A in El. apply ltx_true in El. pose proof (B (w + c) (wwalk_snoc g s u v w c Wu Ec)). lia.
        + destruct Hsc as [-> ->]. auto.
      - destruct Hsc as [-> ->]. auto. }
    assert (Hmono : forall v d, D v = Some d -> exists d', D' v = Some d' /\ d' <= d).
    { intros v d Hv. specialize (Hsc v). destruct (weight g u v) as [c|]; [|exists d; split; [rewrite (proj1 Hsc); exact Hv|lia]].
      destruct (ltx (w + c) (D v)) eqn:El; [|exists d; split; [rewrite (proj1 Hsc); exact Hv|lia]].
      rewrite Hv in El. apply ltx_true in El. exists (w + c). split; [apply Hsc|lia]. }
    assert (Hback : forall v d, D' v = Some d -> D v = Some d /\ P' v = P v \/
              exists c, weight g u v = Some c /\ d = w + c /\ P' v = Some u /\ ltx (w + c) (D v) = true).
    { intros v d Hv. specialize (Hsc v). destruct (weight g u v) as [c|] eqn:Ec.
      - destruct (ltx (w + c) (D v)) eqn:El.
        + right. exists c. destruct Hsc as [A B]. rewrite A in Hv. injection Hv as <-. auto.
        + left. destruct Hsc as [A B]. rewrite A in Hv. auto.
      - left. destruct Hsc as [A B]. rewrite A in Hv. auto. }
    constructor.
    - destruct (j_s _ _ _ HJ) as [Ds Ps]. specialize (Hsc s). destruct (weight g u s) as [c|] eqn:Ec; [|destruct Hsc as [-> ->]; auto].
      destruct (ltx (w + c) (D s)) eqn:El; [|destruct Hsc as [-> ->]; auto].
      rewrite Ds in El. apply ltx_true in El. pose proof (Hn _ _ _ Ec).
      assert (0 <= w); [|lia].
      assert (G : forall v W, wwalk g s v W -> 0 <= W).
      { intros v W HW. induction HW as [|a b W' c' _ IH Hc']; [lia|]. pose proof (Hn _ _ _ Hc'). lia. }
      apply (G u w Wu).
    - intros v d Hv. destruct (Hback v d Hv) as [[A _]|(c & Ec & -> & _)]; [apply (j_w _ _ _ HJ); exact A|].
      split; [apply wwalk_snoc with u; assumption|]. destruct Hg as (_ & _ & K & _). apply (K u). exists c. exact Ec.
    - rewrite map_app. apply NoDup_app_intro; [apply (j_nd _ _ _ HJ)|repeat constructor; intros []|].
      intros x Hx [<-|[]]. exact (Hu Hx).
    - intros v d Hv. split; [apply (Hkeep v d Hv)|]. apply (HinS v d Hv).
    - intros v d y c Hv Hc. apply in_app_iff in Hv. destruct Hv as [Hv|[E|[]]].
      + destruct (j_e _ _ _ HJ v d y c Hv Hc) as (dy & A & B). destruct (Hmono y dy A) as (d' & A' & B').
        exists d'. split; [exact A'|lia].
      + injection E as <- <-. specialize (Hsc y). rewrite Hc in Hsc. destruct (ltx (w + c) (D y)) eqn:El.
        * exists (w + c). split; [apply Hsc|lia].
        * apply ltx_false in El. destruct El as (z & Ez & Hz). exists z. split; [rewrite (proj1 Hsc); exact Ez|exact Hz].
    - intros v d y dy Hv Hy Hny. rewrite map_app, in_app_iff in Hny. cbn [map fst In] in Hny.
      assert (HyS : ~ In y (map fst S)) by tauto.
      assert (Hdw : d <= w).
      { apply in_app_iff in Hv. destruct Hv as [Hv|[E|[]]]; [|injection E as _ ->; lia].
        apply (j_le _ _ _ HJ v d u w Hv Eu Hu). }
      destruct (Hback y dy Hy) as [[A _]|(c & Ec & -> & _)].
      + specialize (Hmin y dy A HyS). lia.
      + pose proof (Hn _ _ _ Ec). lia.
    - intros v p Hp. assert (Hq : P v = Some p \/ (p = u /\ exists c, weight g u v = Some c /\ D' v = Some (w + c))).
      { specialize (Hsc v). destruct (weight g u v) as [c|] eqn:Ec; [|left; rewrite <- (proj2 Hsc); exact Hp].
        destruct (ltx (w + c) (D v)); [|left; rewrite <- (proj2 Hsc); exact Hp].
        right. destruct Hsc as [A B]. rewrite B in Hp. injection Hp as <-. split; [reflexivity|]. exists c. auto. }
      destruct Hq as [Hq|(-> & c & Ec & A)].
      + destruct (j_p _ _ _ HJ v p Hq) as (dp & c & A & B & C). specialize (Hsc v).
        destruct (weight g u v) as [c'|] eqn:Ec.
        * destruct (ltx (w + c') (D v)) eqn:El.
          -- destruct Hsc as [E1 E2]. rewrite E2 in Hp. injection Hp as <-. exists w, c'.
             split; [apply in_or_app; right; left; reflexivity|]. split; [exact Ec|exact E1].
          -- exists dp, c. split; [apply in_or_app; left; exact A|]. split; [exact B|]. rewrite (proj1 Hsc). exact C.
        * exists dp, c. split; [apply in_or_app; left; exact A|]. split; [exact B|]. rewrite (proj1 Hsc). exact C.
      + exists w, c. split; [apply in_or_app; right; left; reflexivity|]. auto.
    - intros v d Hv Hp. destruct (Hback v d Hv) as [[A B]|(c & _ & _ & B & _)]; [|congruence].
      apply (j_pn _ _ _ HJ v d A). rewrite <- B. exact Hp.
    - intros S1 v d S2 E Hv.
      assert (Hin : In (v, d) (S ++ [(u, w)])) by (rewrite E; apply in_or_app; right; left; reflexivity).
      destruct (Hkeep v d Hin) as [_ EP]. rewrite EP.
      destruct S2 as [|z S2] using rev_ind.
      + apply app_inj_tail in E. destruct E as [<- E]. injection E as <- <-.
        destruct (P u) as [p|] eqn:Ep.
        * destruct (j_p _ _ _ HJ u p Ep) as (dp & c & A & _). exists p. split; [reflexivity|]. apply in_map_iff. exists (p, dp). auto.
        * destruct Hv. apply (j_pn _ _ _ HJ u w Eu Ep).
      + clear IHS2. rewrite app_comm_cons, app_assoc in E. apply app_inj_tail in E. destruct E as [E _].
        apply (j_ord _ _ _ HJ S1 v d S2 E Hv).
    - apply ss_app. split; [apply (j_so _ _ _ HJ)|]. split; [repeat constructor|].
      intros [v d] y Hv [<-|[]]. cbn [snd]. apply (j_le _ _ _ HJ v d u w Hv Eu Hu).
  Qed.

  (** when every vertex with an estimate is settled *)
  Lemma J_final D P S : J D P S -> (forall y dy, D y = Some dy -> In y (map fst S)) ->
    (forall v, match D v with Some d => shortest g s v d | None => forall W, ~ wwalk g s v W end).
  Proof.
    intros HJ Hall v. destruct (D v) as [d|] eqn:E.
    - split; [apply (j_w _ _ _ HJ v d E)|]. pose proof (Hall v d E) as H. apply in_map_iff in H.
      destruct H as ([x d'] & Ex & H). cbn in Ex. subst x. destruct (j_S _ _ _ HJ v d' H) as [E' K].
      rewrite E' in E. injection E as <-. exact K.
    - intros W HW. destruct (J_frontier D P S v W HJ HW) as [(d & Hd & _)|(y & dy & A & B & _)].
      + destruct (j_S _ _ _ HJ v d Hd) as [K _]. congruence.
      + exact (B (Hall y dy A)).
  Qed.

  Lemma shortest_unique u v d d' : shortest g u v d -> shortest g u v d' -> d = d'.
  Proof. intros [A B] [C E]. pose proof (B _ C). pose proof (E _ A). lia. Qed.

  (** the predecessors of settled vertices lead to s *)
  Lemma J_prev D P S prev : J D P S -> (forall v p, P v = Some p -> dget prev v = Some (Some p)) ->
    forall v d, In (v, d) S -> prev_path g prev s v d.
  Proof.
    intros HJ HP. assert (G : forall n S1 v d S2, length S1 = n -> S = S1 ++ (v, d) :: S2 -> prev_path g prev s v d).
    { induction n as [n IH] using lt_wf_ind. intros S1 v d S2 Hlen E.
      assert (Hin : In (v, d) S) by (rewrite E; apply in_or_app; right; left; reflexivity).
      destruct (j_S _ _ _ HJ v d Hin) as [Dv _].
      destruct (Z.eq_dec v s) as [->|Hv].
      - rewrite (proj1 (j_s _ _ _ HJ)) in Dv. injection Dv as <-. constructor.
      - destruct (j_ord _ _ _ HJ S1 v d S2 E Hv) as (p & Hp & Hin1).
        destruct (j_p _ _ _ HJ v p Hp) as (dp & c & Hdp & Hc & Dv'). rewrite Dv in Dv'. injection Dv' as ->.
        apply pp_step with p; [apply HP; exact Hp|exact Hc|].
        apply in_map_iff in Hin1. destruct Hin1 as ([x dx] & Ex & Hx). cbn in Ex. subst x.
        assert (dx = dp).
        { assert (In (p, dx) S) by (rewrite E; apply in_or_app; left; exact Hx).
          destruct (j_S _ _ _ HJ p dx H) as [K1 _]. destruct (j_S _ _ _ HJ p dp Hdp) as [K2 _]. congruence. }
        subst dx. apply in_split in Hx. destruct Hx as (T1 & T2 & ->).
        apply (IH (length T1)) with T1 (T2 ++ (v, dp + c) :: S2); [|reflexivity|].
        + rewrite app_length in Hlen. cbn [length] in Hlen. lia.
        + rewrite E, <- app_assoc. reflexivity. }
    intros v d Hv. apply in_split in Hv. destruct Hv as (S1 & S2 & E). apply (G (length S1) S1 v d S2); auto.
  Qed.

  Lemma J_paths D P S prev : J D P S -> (forall y dy, D y = Some dy -> In y (map fst S)) ->
    (forall v p, P v = Some p <-> dget prev v = Some (Some p)) -> shortest_paths g s prev.
  Proof.
    intros HJ Hall HP. split; [|split].
    - intros p E. apply HP in E. rewrite (proj2 (j_s _ _ _ HJ)) in E. discriminate.
    - intros v p E. apply HP in E. destruct (j_p _ _ _ HJ v p E) as (dp & c & _ & _ & Dv). exists (dp + c).
      apply (j_w _ _ _ HJ v _ Dv).
    - intros v d Hsd. pose proof (J_final D P S HJ Hall v) as F. destruct (D v) as [d'|] eqn:Ed.
      + rewrite (shortest_unique s v d d' Hsd F). pose proof (Hall v d' Ed) as Hv. apply in_map_iff in Hv.
        destruct Hv as ([x dx] & Ex & Hx). cbn in Ex. subst x.
        destruct (j_S _ _ _ HJ v dx Hx) as [K _]. rewrite K in Ed. injection Ed as <-.
        apply (J_prev D P S prev HJ (fun v p => proj1 (HP v p)) v dx Hx).
      + destruct Hsd as [W _]. destruct (F d W).
  Qed.

  (** ** The scan of the neighbours *)

  Definition getD (dist : dists) (v : Z) : option Z := match dget dist v with Some d => d | None => None end.

  Definition improved (D : Z -> option Z) (w : Z) (row : list (Z * Z)) : list (Z * Z) :=
    map (fun vc => (w + snd vc, fst vc)) (filter (fun vc => ltx (w + snd vc) (D (fst vc))) row).

  Lemma relax_eq {H} (push : H -> Z -> Z -> outcome H) u w : forall row dist prev h, NoDup (map fst row) ->
    (forall v, In v (map fst row) -> In v (dkeys dist)) ->
    relax push u w row (dist, prev, h) =
    (do h <- foldM (fun h x => push h (fst x) (snd x)) (improved (getD dist) w row) h;
     Ret (fold_left (fun d x => dset d (snd x) (Some (fst x))) (improved (getD dist) w row) dist,
          fold_left (fun d x => dset d (snd x) (Some u)) (improved (getD dist) w row) prev, h)).
  Proof using.
    clear g s Hg Hs Hn.
    unfold relax. induction row as [|[v c] row IH]; intros dist prev h ND HK; [reflexivity|].
    cbn [map fst] in ND, HK. inversion_clear ND as [|? ? N1 N2]. cbn [foldM].
    unfold improved at 1 2 3. cbn [filter fst snd].
    assert (Hv : exists d, dget dist v = Some d) by (apply dget_key; apply HK; left; reflexivity). destruct Hv as [d Ed].
    unfold dgetM at 1. rewrite Ed. cbn [bind].
    assert (Ed' : getD dist v = d) by (unfold getD; rewrite Ed; reflexivity). rewrite Ed'.
    destruct (ltx (w + c) d) eqn:El; cbn [bind].
    - cbn [map fold_left foldM fst snd].
      destruct (push h (w + c) v) as [h'|e|]; [|reflexivity|reflexivity]. cbn [bind].
      rewrite IH; [|exact N2|].
      2:{ intros x Hx. apply dkeys_dset_In. left. apply HK. right. exact Hx. }
      assert (EI : improved (getD (dset dist v (Some (w + c)))) w row = improved (getD dist) w row).
      { unfold improved. f_equal. apply filter_ext_in. intros [x cx] Hx. cbn [fst snd]. f_equal. unfold getD.
        rewrite dget_dset. destruct (Z.eqb_spec v x) as [->|]; [|reflexivity]. destruct N1. apply in_map_iff. exists (x, cx). auto. }
      rewrite EI. reflexivity.
    - rewrite IH; [reflexivity|exact N2|]. intros x Hx. apply HK. right. exact Hx.
  Qed.

  Lemma fold_dset_get {V} (f : Z * Z -> V) : forall l (d : list (Z * V)) k, NoDup (map snd l) ->
    dget (fold_left (fun d x => dset d (snd x) (f x)) l d) k =
    match find (fun x => snd x =? k) l with Some x => Some (f x) | None => dget d k end.
  Proof using.
    clear g s Hg Hs Hn.
    induction l as [|x l IH]; intros d k N; [reflexivity|]. cbn [map] in N. inversion_clear N as [|? ? N1 N2].
    cbn [fold_left find]. rewrite IH by exact N2. rewrite dget_dset. destruct (Z.eqb_spec (snd x) k) as [E|E].
    - destruct (find _ l) eqn:F; [|reflexivity]. apply find_some in F. destruct F as [F1 F2]. apply Z.eqb_eq in F2.
      destruct N1. rewrite E, <- F2. apply in_map. exact F1.
    - reflexivity.
  Qed.

  Lemma fold_dset_keys {V} (f : Z * Z -> V) : forall l (d : list (Z * V)) k,
    In k (dkeys (fold_left (fun d x => dset d (snd x) (f x)) l d)) <-> In k (dkeys d) \/ In k (map snd l).
  Proof using.
    clear g s Hg Hs Hn.
    induction l as [|x l IH]; intros d k; cbn [fold_left map In]; [tauto|]. rewrite IH, dkeys_dset_In. clear. intuition congruence.
  Qed.

  Lemma improved_nd D w row : NoDup (map fst row) -> NoDup (map snd (improved D w row)).
  Proof using.
    clear g s Hg Hs Hn.
    intros N. unfold improved. rewrite map_map. cbn [snd]. induction row as [|[v c] row IH]; cbn [filter map fst]; [constructor|].
    cbn [map fst] in N. inversion_clear N as [|? ? N1 N2]. cbn [fst snd]. destruct (ltx (w + c) (D v)); [|auto].
    cbn [map fst]. constructor; [|auto]. intros H. apply in_map_iff in H. destruct H as (x & E & H).
    apply filter_In in H. destruct H as [H _]. apply N1. rewrite <- E. apply in_map. exact H.
  Qed.

  Lemma improved_In D w u row d v : dget g u = Some row -> NoDup (map fst row) ->
    (In (d, v) (improved D w row) <-> exists c, weight g u v = Some c /\ d = w + c /\ ltx (w + c) (D v) = true).
  Proof.
    intros E N. unfold improved. rewrite in_map_iff. unfold weight. rewrite E. split.
    - intros ([v' c] & Ex & H). cbn [fst snd] in Ex. injection Ex as <- <-. apply filter_In in H. destruct H as [H1 H2].
      exists c. split; [apply dget_In; assumption|]. auto.
    - intros (c & Hc & -> & H). exists (v, c). split; [reflexivity|]. apply filter_In. split; [|exact H].
      apply dget_Some_In. exact Hc.
  Qed.

  Lemma find_improved D w u row v : dget g u = Some row -> NoDup (map fst row) ->
    find (fun x => snd x =? v) (improved D w row) =
    match weight g u v with Some c => if ltx (w + c) (D v) then Some (w + c, v) else None | None => None end.
  Proof.
    intros E N. destruct (find _ _) as [[d v']|] eqn:F.
    - apply find_some in F. destruct F as [F1 F2]. cbn [snd] in F2. apply Z.eqb_eq in F2. subst v'.
      apply (improved_In D w u row d v E N) in F1. destruct F1 as (c & Ec & -> & El). rewrite Ec, El. reflexivity.
    - destruct (weight g u v) as [c|] eqn:Ec; [|reflexivity]. destruct (ltx (w + c) (D v)) eqn:El; [|reflexivity].
      assert (Hin : In (w + c, v) (improved D w row)) by (apply (improved_In D w u row _ v E N); eauto).
      apply (find_none _ _ F) in Hin. cbn in Hin. rewrite Z.eqb_refl in Hin. discriminate.
  Qed.

  (** the pointwise effect of the scan on the two dictionaries *)
  Lemma relax_scanned u w row dist prev : dget g u = Some row -> NoDup (map fst row) ->
    scanned (getD dist) (getD prev)
      (getD (fold_left (fun d x => dset d (snd x) (Some (fst x))) (improved (getD dist) w row) dist))
      (getD (fold_left (fun d x => dset d (snd x) (Some u)) (improved (getD dist) w row) prev)) u w.
  Proof.
    intros E N v.
    assert (A : forall (f : Z * Z -> option Z) d, getD (fold_left (fun d x => dset d (snd x) (f x)) (improved (getD dist) w row) d) v =
      match weight g u v with Some c => if ltx (w + c) (getD dist v) then f (w + c, v) else getD d v | None => getD d v end).
    { intros f d. unfold getD at 1. rewrite fold_dset_get by (apply improved_nd; exact N).
      rewrite (find_improved (getD dist) w u row v E N).
      destruct (weight g u v) as [c|]; [|reflexivity]. destruct (ltx (w + c) (getD dist v)); reflexivity. }
    rewrite (A (fun x => Some (fst x))), (A (fun _ => Some u)).
    destruct (weight g u v) as [c|]; [|auto]. destruct (ltx (w + c) (getD dist v)); cbn; auto.
  Qed.
End Dijkstra.
