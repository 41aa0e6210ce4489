(** * Prim's algorithm *)
From Coq Require Import ZArith List Lia Bool Permutation Sorting.Sorted.
From Verif Require Import Base Py Dict Lists2 Graph_Model Graph_Spec Graph_Proofs Trav_Model Trav_Spec Trav_Proofs Trav_Proofs2
  Paths_Model Paths_Proofs Paths_Proofs2 Paths_Proofs5 MST_Model MST_Spec MST_Proofs.
Import ListNotations.
Open Scope Z_scope.

Section Prim.
  Context (g : graph) (root : Z) (V : list Z).
  Hypothesis Hg : undirected g.
  Hypothesis Hroot : vertex g root.
  Hypothesis NV : NoDup V.
  Hypothesis HV : forall v, In v V <-> reachable g root v.

  Lemma V_root : In root V. Proof. apply HV. exists O. apply walk_0. Qed.
  Lemma V_edge u v c : In u V -> weight g u v = Some c -> In v V.
  Proof. intros H E. apply HV in H as (n & Wk). apply HV. exists (S n). apply (walk_S g root n u v Wk). exists c. exact E. Qed.
  Lemma V_vertex v : In v V -> vertex g v.
  Proof.
    intros H. apply HV in H as (n & Wk). destruct Wk as [|n u v _ E]; [exact Hroot|]. destruct Hg as (_ & _ & C & _). apply (C u v E).
  Qed.
  Lemma wsym u v : weight g u v = weight g v u. Proof. destruct Hg as (_ & _ & _ & H). apply H. Qed.

  (** The tree A, oriented towards the root. *)
  Definition tree (A : list (Z * Z)) : Prop :=
    NoDup (root :: map fst A) /\ promising g V A /\
    (forall u p, In (u, p) A -> In u V /\ In p V /\ edge g u p /\ In p (root :: map fst A)) /\
    (forall v, In v (root :: map fst A) -> linked A root v).

  Definition pinv (A : list (Z * Z)) (seen : Z -> Z -> Z -> Prop) (cost : dists) (prev : prevs) (heap : list (Z * Z)) : Prop :=
    let vis := root :: map fst A in
    keysok g cost /\ dkeys prev = dkeys g /\
    (forall v c, ~ In v vis -> getD cost v = Some c -> exists p, getD prev v = Some p /\ In p vis /\ weight g p v = Some c) /\
    (forall p v c, seen p v c -> ~ In v vis -> exists c', getD cost v = Some c' /\ c' <= c) /\
    (forall v c, ~ In v vis -> getD cost v = Some c -> In (c, v) heap) /\
    (forall w y, In (w, y) heap -> exists c, getD cost y = Some c /\ c <= w) /\
    (forall v p, getD prev v = Some p -> v <> root /\ (In v vis -> In (v, p) A) /\ exists c, getD cost v = Some c) /\
    (forall v p, In (v, p) A -> getD prev v = Some p).

  Definition done (A : list (Z * Z)) : Z -> Z -> Z -> Prop := fun p v c => In p (root :: map fst A) /\ weight g p v = Some c.

  Lemma scan_ok A u row cost prev heap : tree A -> dget g u = Some row -> In u (root :: map fst A) -> In u V ->
    pinv A (fun p v c => p <> u /\ done A p v c) cost prev heap ->
    exists cost' prev' heap', prim_scan u (root :: map fst A) row (cost, prev, heap) = Ret (cost', prev', heap') /\
      pinv A (done A) cost' prev' heap' /\ (length heap' <= length row + length heap)%nat.
  Proof.
    intros HT Er Hu HuV HP. set (vis := root :: map fst A) in *.
    assert (Nr : NoDup (dkeys row)) by (destruct Hg as (_ & Na & _); apply (Na u), dget_Some_In, Er).
    assert (Hrow : forall v c, In (v, c) row <-> weight g u v = Some c).
    { intros v c. unfold weight. rewrite Er. split; [apply dget_In, Nr|apply dget_Some_In]. }
    unfold prim_scan.
    destruct (foldM_inv (fun '(cost, previous, heap) '(v, w) =>
      if mem v vis then Ret (cost, previous, heap)
      else do cv <- dgetM cost v;
           if ltx w cv then Ret (dset cost v (Some w), dset previous v (Some u), (w, v) :: heap) else Ret (cost, previous, heap))
      (fun pre '(c0, p0, h0) => pinv A (fun p v c => (p <> u /\ done A p v c) \/ (p = u /\ In (v, c) pre)) c0 p0 h0 /\
         (length h0 <= length pre + length heap)%nat) row (cost, prev, heap)) as ([[cost' prev'] heap'] & E & HP' & HL).
    - split; [|cbn; lia]. destruct HP as (K0 & K1 & K2 & K3 & K4). split; [exact K0|]. split; [exact K1|]. split; [exact K2|].
      split; [|exact K4]. intros p v c [H|[_ []]]. apply (K3 p v c H).
    - intros pre [v w] post [[c0 p0] h0] Esplit [(K0 & K1 & K2 & K3 & K4 & K5 & K6 & K7) HL].
      assert (Hw : weight g u v = Some w) by (apply Hrow; rewrite Esplit; apply in_elt).
      destruct (mem v vis) eqn:Ev.
      { exists (c0, p0, h0). split; [reflexivity|]. apply mem_In in Ev. split; [|rewrite app_length; cbn; lia].
        split; [exact K0|]. split; [exact K1|]. split; [exact K2|]. split; [|split; [exact K4|split; [exact K5|split; [exact K6|exact K7]]]].
        intros p x c Hs Hx. destruct Hs as [Hs|[-> Hs]]; [apply (K3 p x c); auto|]. apply in_app_or in Hs as [Hs|[Hs|[]]].
        - apply (K3 u x c); auto.
        - injection Hs as <- <-. contradiction. }
      apply mem_false in Ev. assert (Vv : vertex g v) by (apply V_vertex, (V_edge u v w HuV Hw)).
      assert (Hvr : v <> root) by (intros ->; apply Ev; left; reflexivity).
      rewrite (getD_ret g c0 v K0 Vv). cbn [bind]. destruct (ltx w (getD c0 v)) eqn:El.
      + eexists. split; [reflexivity|]. split; [|rewrite app_length; cbn; lia].
        split; [apply keysok_dset, K0|]. split.
        { rewrite dkeys_dset. assert (M : dmem p0 v = true) by (apply dmem_In; rewrite K1; exact Vv). rewrite M. exact K1. }
        split; [|split; [|split; [|split; [|split]]]].
        * intros x c Hx. rewrite !getD_dset. destruct (Z.eqb_spec v x) as [<-|Nx].
          -- intros Ec. injection Ec as <-. exists u. auto.
          -- intros Ec. apply (K2 x c Hx Ec).
        * intros p x c Hs Hx. rewrite getD_dset. destruct (Z.eqb_spec v x) as [<-|Nx].
          -- exists w. split; [reflexivity|]. destruct Hs as [Hs|[-> Hs]].
             ++ destruct (K3 p v c (or_introl Hs) Hx) as (c' & Ec' & Hle). rewrite Ec' in El. cbn in El. apply Z.ltb_lt in El. lia.
             ++ assert (Ew : weight g u v = Some c); [|rewrite Hw in Ew; injection Ew as ->; lia].
                apply in_app_or in Hs as [Hs|[Hs|[]]]; [apply Hrow; rewrite Esplit; apply in_or_app; auto|congruence].
          -- apply (K3 p x c); [|exact Hx]. destruct Hs as [Hs|[-> Hs]]; [auto|]. right. split; [reflexivity|].
             apply in_app_or in Hs as [Hs|[Hs|[]]]; [exact Hs|congruence].
        * intros x c Hx. rewrite getD_dset. destruct (Z.eqb_spec v x) as [<-|Nx]; intros Ec; [injection Ec as <-; left; reflexivity|right; apply (K4 x c Hx Ec)].
        * intros w' y Hy. rewrite getD_dset. destruct (Z.eqb_spec v y) as [<-|Ny].
          -- exists w. split; [reflexivity|]. destruct Hy as [Hy|Hy]; [injection Hy as <-; lia|].
             destruct (K5 w' v Hy) as (c & Ec & Hle). rewrite Ec in El. cbn in El. apply Z.ltb_lt in El. lia.
          -- destruct Hy as [Hy|Hy]; [congruence|]. apply (K5 w' y Hy).
        * intros x p. rewrite !getD_dset. destruct (Z.eqb_spec v x) as [<-|Nx].
          -- intros Ep. split; [exact Hvr|]. split; [intros; contradiction|eauto].
          -- apply K6.
        * intros x p I. rewrite getD_dset. destruct (Z.eqb_spec v x) as [<-|Nx]; [|apply K7, I].
          exfalso. apply Ev. right. apply (in_map fst) in I. exact I.
      + exists (c0, p0, h0). split; [reflexivity|]. split; [|rewrite app_length; cbn; lia].
        split; [exact K0|]. split; [exact K1|]. split; [exact K2|]. split; [|split; [exact K4|split; [exact K5|split; [exact K6|exact K7]]]].
        intros p x c Hs Hx. destruct Hs as [Hs|[-> Hs]]; [apply (K3 p x c); auto|]. apply in_app_or in Hs as [Hs|[Hs|[]]].
        * apply (K3 u x c); auto.
        * injection Hs as <- <-. unfold ltx in El. destruct (getD c0 v) as [y|]; [|discriminate]. apply Z.ltb_ge in El. eauto.
    - exists cost', prev', heap'. split; [exact E|]. split; [|exact HL].
      destruct HP' as (K0 & K1 & K2 & K3 & K4). split; [exact K0|]. split; [exact K1|]. split; [exact K2|]. split; [|exact K4].
      intros p v c Hs Hv. apply (K3 p v c); [|exact Hv]. destruct (Z.eq_dec p u) as [->|Np]; [right|left; auto].
      split; [reflexivity|]. apply Hrow, Hs.
  Qed.

  Lemma loop_ok : forall fuel A cost prev heap, tree A -> pinv A (done A) cost prev heap ->
    (length heap + udeg g (root :: map fst A) <= fuel)%nat ->
    exists prev' A', prim_loop g fuel cost prev heap (root :: map fst A) = Ret prev' /\ tree A' /\ dkeys prev' = dkeys g /\
      (forall v, In v (root :: map fst A') <-> In v V) /\ getD prev' root = None /\
      forall v p, getD prev' v = Some p <-> In (v, p) A'.
  Proof.
    induction fuel as [|fuel IH]; intros A cost prev heap HT HP Hf.
    all: pose proof HP as (K0 & K1 & K2 & K3 & K4 & K5 & K6 & K7); pose proof HT as (N & Pr & TA & TL).
    all: assert (Done : heap = [] -> exists prev' A', Ret prev = Ret prev' /\ tree A' /\ dkeys prev' = dkeys g /\
      (forall v, In v (root :: map fst A') <-> In v V) /\ getD prev' root = None /\
      forall v p, getD prev' v = Some p <-> In (v, p) A').
    1,3: intros ->; exists prev, A; split; [reflexivity|]; split; [exact HT|]; split; [exact K1|];
      assert (Clo : forall p v c, In p (root :: map fst A) -> weight g p v = Some c -> In v (root :: map fst A)) by
        (intros p v c Hp Hw; destruct (in_dec Z.eq_dec v (root :: map fst A)) as [I|I]; [exact I|];
         destruct (K3 p v c (conj Hp Hw) I) as (c' & Ec & _); destruct (K4 v c' I Ec));
      split; [|split].
    1,4: intros v; split;
      [intros [<-|I]; [apply V_root|apply in_map_iff in I as ([u p] & <- & I); apply (TA u p I)]|];
      intros I; apply HV in I as (n & Wk); induction Wk as [|n u v _ IHw (c & Hc)]; [left; reflexivity|apply (Clo u v c IHw Hc)].
    1,3: destruct (getD prev root) as [p|] eqn:Ep; [destruct (K6 root p Ep); congruence|reflexivity].
    1,2: intros v p; split; [|apply K7]; intros Ep; destruct (K6 v p Ep) as (_ & I & c & Ec); apply I;
      destruct (in_dec Z.eq_dec v (root :: map fst A)) as [J|J]; [exact J|destruct (K4 v c J Ec)].
    - destruct heap as [|x heap]; [|cbn in Hf; lia]. cbn [prim_loop]. apply Done. reflexivity.
    - destruct heap as [|x heap]; [cbn [prim_loop]; apply Done; reflexivity|]. clear Done. cbn [prim_loop].
      destruct (pop_min pair_ltb x heap) as [[w u] heap'] eqn:Ep.
      destruct (pop_min_ok pair_ltb fst pair_ltb_1 pair_ltb_2 _ _ _ _ Ep) as [P M].
      pose proof (Permutation_length P) as Lp. cbn [length] in Lp, Hf.
      destruct (mem u (root :: map fst A)) eqn:Eu.
      + apply mem_In in Eu. apply IH; [exact HT| |lia].
        split; [exact K0|]. split; [exact K1|]. split; [exact K2|]. split; [exact K3|]. split; [|split; [|split; [exact K6|exact K7]]].
        * intros v c Hv Ec. pose proof (K4 v c Hv Ec) as I. apply (Permutation_in _ P) in I. destruct I as [I|I]; [congruence|exact I].
        * intros w' y Hy. apply K5, (Permutation_in _ (Permutation_sym P)). right. exact Hy.
      + apply mem_false in Eu.
        destruct (K5 w u) as (c & Ec & Hle); [apply (Permutation_in _ (Permutation_sym P)); left; reflexivity|].
        assert (Ew : c = w).
        { pose proof (M (c, u) (K4 u c Eu Ec)) as Hm. cbn in Hm. lia. }
        subst c. destruct (K2 u w Eu Ec) as (p & Epu & Hp & Hw).
        assert (Vp : In p V) by (destruct Hp as [<-|Hp]; [apply V_root|apply in_map_iff in Hp as ([a b] & <- & I); apply (TA a b I)]).
        assert (Vu : In u V) by (apply (V_edge p u w Vp Hw)).
        set (A' := A ++ [(u, p)]).
        assert (EA : root :: map fst A ++ [u] = root :: map fst A') by (unfold A'; rewrite map_app; reflexivity).
        cbn [app]. rewrite EA.
        assert (HT' : tree A').
        { split; [|split; [|split]].
          - rewrite <- EA. change (NoDup ((root :: map fst A) ++ [u])). apply NoDup_app_intro; [exact N|constructor; [intros []|constructor]|].
            intros a Ha [<-|[]]. contradiction.
          - apply (blue g V Hg A (fun z => negb (mem z (root :: map fst A))) u p w Pr).
            + intros a b I. destruct (TA a b I) as (_ & _ & _ & Ib).
              assert (Ia : In a (root :: map fst A)) by (right; apply (in_map fst) in I; exact I).
              apply mem_In in Ia, Ib. rewrite Ia, Ib. reflexivity.
            + exact Vu.
            + exact Vp.
            + rewrite wsym. exact Hw.
            + apply mem_false in Eu. rewrite Eu. reflexivity.
            + apply mem_In in Hp. rewrite Hp. reflexivity.
            + intros a b c' _ _ Hab Sa Sb. apply negb_true_iff, mem_false in Sa. apply negb_false_iff, mem_In in Sb.
              rewrite wsym in Hab. destruct (K3 b a c' (conj Sb Hab) Sa) as (c2 & E2 & L2).
              pose proof (M (c2, a) (K4 a c2 Sa E2)) as Hm. cbn in Hm. lia.
          - intros a b I. rewrite <- EA. change (root :: map fst A ++ [u]) with ((root :: map fst A) ++ [u]).
            unfold A' in I. apply in_app_or in I as [I|[I|[]]].
            + destruct (TA a b I) as (Ia & Ib & Ee & Iv). split; [exact Ia|]. split; [exact Ib|]. split; [exact Ee|]. apply in_or_app. auto.
            + injection I as <- <-. split; [exact Vu|]. split; [exact Vp|]. split; [exists w; rewrite wsym; exact Hw|]. apply in_or_app. auto.
          - intros v I. rewrite <- EA in I. change (root :: map fst A ++ [u]) with ((root :: map fst A) ++ [u]) in I.
            assert (Mo : forall a b, linked A a b -> linked A' a b) by (intros a b; apply linked_sub; intros e Ie; apply in_or_app; auto).
            apply in_app_or in I as [I|[<-|[]]]; [apply Mo, TL, I|]. apply (linked_trans _ root p u); [apply Mo, TL, Hp|].
            apply linked_sym, linked_edge, in_or_app. right. left. reflexivity. }
        destruct (adj_row g Hg u (V_vertex u Vu)) as (row & Er & _). unfold g_adj, dgetM. rewrite Er. cbn [bind].
        destruct (scan_ok A' u row cost prev heap' HT' Er) as (cost' & prev' & heap2 & Esc & HP' & HL).
        * rewrite <- EA. right. apply in_or_app. right. left. reflexivity.
        * exact Vu.
        * assert (Sub : forall v, ~ In v (root :: map fst A') -> v <> u /\ ~ In v (root :: map fst A)).
          { intros v Hv. rewrite <- EA in Hv. change (~ In v ((root :: map fst A) ++ [u])) in Hv. rewrite in_app_iff in Hv. cbn [In] in Hv.
            split; [intros ->; apply Hv; right; left; reflexivity|intros I; apply Hv; left; exact I]. }
          assert (Sup : forall v, In v (root :: map fst A) -> In v (root :: map fst A')).
          { intros v Hv. rewrite <- EA. change (In v ((root :: map fst A) ++ [u])). apply in_or_app. auto. }
          split; [exact K0|]. split; [exact K1|]. split; [|split; [|split; [|split; [|split]]]].
          -- intros v c Hv Ecv. destruct (Sub v Hv) as [_ Hv']. destruct (K2 v c Hv' Ecv) as (q & H1 & H2 & H3). exists q. auto.
          -- intros q v c [Nq [Hq Hqw]] Hv. destruct (Sub v Hv) as [_ Hv']. apply (K3 q v c); [|exact Hv']. split; [|exact Hqw].
             rewrite <- EA in Hq. change (In q ((root :: map fst A) ++ [u])) in Hq. apply in_app_or in Hq as [Hq|[->|[]]]; [exact Hq|congruence].
          -- intros v c Hv Ecv. destruct (Sub v Hv) as [Nv Hv']. pose proof (K4 v c Hv' Ecv) as I. apply (Permutation_in _ P) in I.
             destruct I as [I|I]; [congruence|exact I].
          -- intros w' y Hy. apply K5, (Permutation_in _ (Permutation_sym P)). right. exact Hy.
          -- intros v q Eq. destruct (K6 v q Eq) as (H1 & H2 & H3). split; [exact H1|]. split; [|exact H3]. intros I.
             rewrite <- EA in I. change (In v ((root :: map fst A) ++ [u])) in I. unfold A'.
             apply in_or_app. apply in_app_or in I as [I|[<-|[]]]; [left; apply H2, I|]. right. left. congruence.
          -- intros v q I. unfold A' in I. apply in_app_or in I as [I|[I|[]]]; [apply K7, I|]. injection I as <- <-. exact Epu.
        * rewrite Esc. cbn [bind]. apply IH; [exact HT'|exact HP'|].
          pose proof (udeg_visit g (root :: map fst A) u row (proj1 Hg) Er Eu) as Eud.
          change ((root :: map fst A) ++ [u]) with (root :: map fst A ++ [u]) in Eud. rewrite EA in Eud. lia.
  Qed.

  Lemma prim_prev_ok : exists prev A, 
    prim_loop g (S (arcs g)) (dset (all_keys g None) root (Some 0)) (all_keys g None) [(0, root)] [] = Ret prev /\
    tree A /\ dkeys prev = dkeys g /\ (forall v, In v (root :: map fst A) <-> In v V) /\ getD prev root = None /\
    forall v p, getD prev v = Some p <-> In (v, p) A.
  Proof.
    cbn [prim_loop pop_min mem existsb app].
    destruct (adj_row g Hg root Hroot) as (row & Er & _). unfold g_adj, dgetM. rewrite Er. cbn [bind].
    assert (HT : tree []).
    { split; [constructor; [intros []|constructor]|]. split; [apply promising_nil|]. split; [intros u p []|].
      intros v [<-|[]]. apply linked_refl. }
    destruct (scan_ok [] root row (dset (all_keys g None) root (Some 0)) (all_keys g None) [] HT Er) as (cost' & prev' & heap' & E & HP & HL).
    - left. reflexivity.
    - apply V_root.
    - cbn [map]. assert (G : forall v, getD (all_keys g None) v = None) by (intros v; apply getD_all).
      split; [apply keysok_init|]. split; [unfold all_keys, dkeys; rewrite map_map; cbn; apply map_id|].
      split; [|split; [|split; [|split; [|split]]]].
      + intros v c Hv. rewrite getD_init. destruct (Z.eqb_spec root v) as [<-|]; [exfalso; apply Hv; left; reflexivity|discriminate].
      + intros p v c [Np [[Hp|[]] _]]. congruence.
      + intros v c Hv. rewrite getD_init. destruct (Z.eqb_spec root v) as [<-|]; [exfalso; apply Hv; left; reflexivity|discriminate].
      + intros w y [].
      + intros v p. rewrite G. discriminate.
      + intros v p [].
    - cbn [map] in E. rewrite E. cbn [bind]. apply (loop_ok (arcs g) [] cost' prev' heap' HT HP).
      rewrite arcs_udeg. cbn [map]. pose proof (udeg_visit g [] root row (proj1 Hg) Er (fun H => H)) as Eud. cbn [app] in Eud. cbn [length] in HL. lia.
  Qed.

  Lemma prim_edges_ok prev : NoDup (dkeys prev) -> (forall v p, getD prev v = Some p -> edge g v p) ->
    exists W, prim_edges g prev = Ret (W, norm (parent_edges prev)) /\ total_weight g (parent_edges prev) W.
  Proof.
    intros N HE. unfold prim_edges.
    destruct (foldM_inv (fun '(total, edges) '(u, p) =>
      match p with None => Ret (total, edges)
      | Some v => do row <- g_adj g u; do w <- dgetM row v; Ret (total + w, edges ++ [ordered u v]) end)
      (fun pre '(W, E) => E = norm (parent_edges pre) /\ total_weight g (parent_edges pre) W) prev (0, [])) as ([W E] & H & HE' & HW).
    - split; [reflexivity|constructor].
    - intros pre [u [v|]] post [W E] Es [-> HW]; unfold parent_edges; rewrite flat_map_app; cbn [flat_map]; rewrite app_nil_r.
      + assert (Eg : edge g u v).
        { apply HE. unfold getD. rewrite (dget_In prev u (Some v)); [reflexivity|exact N|rewrite Es; apply in_elt]. }
        destruct Eg as (w & Hw). unfold weight in Hw. destruct (dget g u) as [row|] eqn:Er; [|discriminate].
        unfold g_adj, dgetM. rewrite Er. cbn [bind]. rewrite Hw. cbn [bind]. eexists. split; [reflexivity|].
        split; [unfold norm; rewrite map_app; reflexivity|]. apply tw_app. exists W, w. split; [exact HW|]. split; [|reflexivity].
        replace w with (w + 0) by lia. constructor; [unfold weight; rewrite Er; exact Hw|constructor].
      + cbn [app]; rewrite ?app_nil_r. eexists. split; [reflexivity|]. split; [reflexivity|exact HW].
    - exists W. rewrite H, HE'. split; [reflexivity|exact HW].
  Qed.

  Lemma parent_edges_In prev u p : NoDup (dkeys prev) -> In (u, p) (parent_edges prev) <-> getD prev u = Some p.
  Proof.
    intros N. unfold parent_edges, getD. rewrite in_flat_map. split.
    - intros ([a [b|]] & I & J); [|destruct J]. destruct J as [J|[]]. injection J as -> ->. rewrite (dget_In _ _ _ N I). reflexivity.
    - destruct (dget prev u) as [o|] eqn:E; [|discriminate]. intros ->. exists (u, Some p). split; [apply dget_Some_In, E|left; reflexivity].
  Qed.
  Lemma parent_edges_nodup prev : NoDup (dkeys prev) -> NoDup (parent_edges prev).
  Proof.
    unfold parent_edges, dkeys. induction prev as [|[u [v|]] prev IH]; cbn [map fst flat_map app]; intros N; [constructor| |];
      inversion_clear N as [|? ? Nu N']; [|auto]. constructor; [|auto]. intros I. apply in_flat_map in I as ([a [b|]] & I & J); [|destruct J].
    destruct J as [J|[]]. injection J as -> ->. apply Nu. apply (in_map fst) in I. exact I.
  Qed.

  Lemma prim_run_ok : exists W prev,
    prim_run g (Some root) = Ret (W, norm (parent_edges prev), prev) /\
    minimum_spanning_tree g V (parent_edges prev) W /\ map fst prev = map fst g /\ dget prev root = Some None.
  Proof.
    destruct prim_prev_ok as (prev & A & E & HT & Ek & HVs & Er & HA). destruct HT as (N & Pr & TA & TL).
    assert (Np : NoDup (dkeys prev)) by (rewrite Ek; apply Hg).
    assert (P : Permutation (parent_edges prev) A).
    { apply NoDup_Permutation; [apply parent_edges_nodup, Np| |].
      - inversion_clear N as [|? ? _ N']. apply (NoDup_map_inv fst). exact N'.
      - intros [u p]. rewrite parent_edges_In by exact Np. apply HA. }
    destruct (prim_edges_ok prev Np) as (W & EE & HW).
    { intros v p Hp. apply HA in Hp. apply (TA v p Hp). }
    exists W, prev. unfold prim_run. cbn [prim_root bind]. rewrite E. cbn [bind]. rewrite EE. cbn [bind].
    split; [reflexivity|]. split; [|split; [exact Ek|]].
    - assert (S0 : spanning_tree g V A).
      { split; [|split].
        - intros u v I. destruct (TA u v I) as (H1 & H2 & H3 & _). auto.
        - intros u v Hu Hv. apply HVs in Hu, Hv. apply (linked_trans _ u root v); [apply linked_sym, TL, Hu|apply TL, Hv].
        - rewrite <- (map_length fst A). change (length (root :: map fst A) = length V). apply Permutation_length.
          apply NoDup_Permutation; [exact N|exact NV|exact HVs]. }
      assert (M : minimum_spanning_tree g V A W) by (apply promising_minimum; [exact Pr|exact S0|apply (tw_perm g _ _ _ P HW)]).
      destruct M as (_ & _ & M). split; [apply (st_perm g V A); [symmetry; exact P|exact S0]|]. split; [exact HW|exact M].
    - assert (I : In root (dkeys prev)) by (rewrite Ek; exact Hroot). apply dget_key in I as (o & Eo). rewrite Eo.
      unfold getD in Er. rewrite Eo in Er. congruence.
  Qed.
End Prim.
