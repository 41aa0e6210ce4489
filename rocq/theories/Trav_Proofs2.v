(** * Depth-first search, components *)
From Coq Require Import ZArith List Lia Bool Permutation Sorting.Sorted.
From Verif Require Import Base Py Dict Lists2 Gen Graph_Model Graph_Spec Graph_Proofs Trav_Model Trav_Spec Trav_Proofs.
Import ListNotations.
Open Scope Z_scope.

Fixpoint udeg (g : graph) (vis : list Z) : nat :=
  match g with
  | [] => O
  | (v, a) :: g' => ((if mem v vis then 0 else length a) + udeg g' vis)%nat
  end.

Lemma mem_snoc v vis u : mem v (vis ++ [u]) = (mem v vis || (v =? u))%bool.
Proof. unfold mem. rewrite existsb_app. cbn. rewrite orb_false_r. reflexivity. Qed.

Lemma udeg_fresh g vis u : ~ In u (dkeys g) -> udeg g (vis ++ [u]) = udeg g vis.
Proof.
  induction g as [|[v a] g IH]; cbn; intros H; [reflexivity|]. rewrite IH by tauto. rewrite mem_snoc.
  replace (v =? u) with false by (symmetry; apply Z.eqb_neq; tauto). rewrite orb_false_r. reflexivity.
Qed.

Lemma udeg_visit g vis u a : NoDup (dkeys g) -> dget g u = Some a -> ~ In u vis ->
  udeg g vis = (length a + udeg g (vis ++ [u]))%nat.
Proof.
  induction g as [|[v b] g IH]; cbn [dget dkeys map fst udeg]; intros N E H; [discriminate|].
  inversion_clear N as [|? ? N1 N2]. rewrite mem_snoc. destruct (v =? u) eqn:Ev.
  - apply Z.eqb_eq in Ev. subst v. injection E as ->. apply mem_false in H. rewrite H. cbn [orb].
    rewrite udeg_fresh by exact N1. reflexivity.
  - rewrite orb_false_r, IH by assumption. lia.
Qed.

Lemma udeg_nil g : udeg g [] = fold_right (fun ua t => (length (snd ua) + t)%nat) O g.
Proof. induction g as [|[v a] g IH]; cbn; [reflexivity|]. rewrite IH. reflexivity. Qed.

Section DFS.
  Context (g : graph) (s : Z).
  Hypothesis Hg : undirected g.
  Hypothesis Hs : vertex g s.

  Record dinv (M : option Z) (st : list (Z * Z)) (vis : list Z) : Prop := {
    d_nd : NoDup vis;
    d_st : forall v d, In (v, d) st -> vertex g v /\ exists n, d = Z.of_nat n /\ walk g s n v /\ (v = s \/ leM M n);
    d_vi : forall v, In v vis -> vertex g v /\ (v = s \/ exists n, walk g s n v /\ leM M n);
    d_s : In s vis \/ In s (map fst st);
    d_cl : M = None -> forall u v, In u vis -> edge g u v -> In v vis \/ In v (map fst st) }.

  Lemma dfs_loop_ok M : forall fuel st vis, dinv M st vis -> (length st + udeg g vis < fuel)%nat ->
    exists L, dfs_loop g M fuel st vis = (L, GEnded) /\ dinv M [] (vis ++ L).
  Proof.
    induction fuel as [|fuel IH]; intros st vis HI Hf; [lia|].
    destruct st as [|[u d] st].
    - exists []. cbn [dfs_loop]. rewrite app_nil_r. auto.
    - cbn [dfs_loop]. cbn [length] in Hf. destruct (mem u vis) eqn:Eu.
      + apply mem_In in Eu. apply IH; [|lia]. destruct HI as [H1 H2 H3 H4 H5]. constructor; auto.
        * intros v e Hv. apply H2. right. exact Hv.
        * destruct H4 as [H4|[<-|H4]]; auto.
        * intros EM x y Hx Hxy. destruct (H5 EM x y Hx Hxy) as [K|[<-|K]]; auto.
      + apply mem_false in Eu. destruct (d_st _ _ _ HI u d (or_introl eq_refl)) as (Vu & n & -> & Wn & Hn).
        destruct (adj_row g Hg u Vu) as (a & Ea & Na & Ha).
        pose proof (udeg_visit g vis u a (proj1 Hg) Ea Eu) as Eud.
        destruct (deeper M (Z.of_nat n)) eqn:Ed.
        * apply deeper_ltM in Ed. rewrite Ea.
          change (filter (fun v => negb (mem v (vis ++ [u]))) (dkeys a)) with (new (vis ++ [u]) (dkeys a)).
          set (N := new (vis ++ [u]) (dkeys a)).
          destruct (IH (rev (map (fun v => (v, Z.of_nat n + 1)) N) ++ st) (vis ++ [u])) as (L & E & HL).
          -- destruct HI as [H1 H2 H3 H4 H5]. constructor.
             ++ apply NoDup_app_intro; [exact H1|repeat constructor; intros []|]. intros x Hx [<-|[]]. auto.
             ++ intros v e Hv. apply in_app_iff in Hv. destruct Hv as [Hv|Hv]; [|apply H2; right; exact Hv].
                apply in_rev in Hv. apply in_map_iff in Hv. destruct Hv as (v' & Ev & Hv). injection Ev as <- <-.
                apply new_In in Hv. destruct Hv as [Hv _]. apply Ha in Hv. split.
                ** destruct Hg as (_ & _ & Hv' & _). apply (Hv' u). exact Hv.
                ** exists (S n). split; [lia|]. split; [apply walk_S with u; assumption|]. right.
                   destruct M as [m|]; cbn in *; [lia|exact I].
             ++ intros v Hv. apply in_app_iff in Hv. destruct Hv as [Hv|[<-|[]]]; [auto|]. split; [exact Vu|].
                destruct Hn as [Hn|Hn]; [auto|right; eauto].
             ++ rewrite map_app, !in_app_iff. cbn [In]. destruct H4 as [H4|[<-|H4]]; cbn [In]; auto.
             ++ intros EM x y Hx Hxy. rewrite map_app, !in_app_iff, map_rev, map_map, map_id.
                destruct (in_dec Z.eq_dec y (vis ++ [u])) as [Hy|Hy]; [apply in_app_iff in Hy; auto|].
                apply in_app_iff in Hx. destruct Hx as [Hx|[<-|[]]].
                ** destruct (H5 EM x y Hx Hxy) as [K|[<-|K]]; auto. left. right. left. reflexivity.
                ** right. left. apply -> in_rev. apply new_In. split; [apply Ha; exact Hxy|exact Hy].
          -- rewrite app_length, rev_length, map_length. unfold N, new.
             assert (Hfl : forall (f : Z -> bool) l, (length (filter f l) <= length l)%nat).
             { clear. intros f. induction l as [|x l IH]; cbn; [lia|]. destruct (f x); cbn; lia. }
             specialize (Hfl (fun v => negb (mem v (vis ++ [u]))) (dkeys a)). unfold dkeys in Hfl at 2.
             rewrite map_length in Hfl. lia.
          -- rewrite E. exists (u :: L). split; [reflexivity|]. rewrite <- app_assoc in HL. exact HL.
        * assert (Hd : ~ ltM M n) by (rewrite <- deeper_ltM, Ed; discriminate).
          destruct (IH st (vis ++ [u])) as (L & E & HL).
          -- destruct HI as [H1 H2 H3 H4 H5]. constructor.
             ++ apply NoDup_app_intro; [exact H1|repeat constructor; intros []|]. intros x Hx [<-|[]]. auto.
             ++ intros v e Hv. apply H2. right. exact Hv.
             ++ intros v Hv. apply in_app_iff in Hv. destruct Hv as [Hv|[<-|[]]]; [auto|]. split; [exact Vu|].
                destruct Hn as [Hn|Hn]; [auto|right; eauto].
             ++ rewrite in_app_iff. cbn [In]. destruct H4 as [H4|[<-|H4]]; auto.
             ++ intros ->. cbn in Hd. tauto.
          -- lia.
          -- rewrite E. exists (u :: L). split; [reflexivity|]. rewrite <- app_assoc in HL. exact HL.
  Qed.

  Lemma dinv_init M : dinv M [(s, 0)] [].
  Proof.
    constructor.
    - constructor.
    - intros v d [E|[]]. injection E as <- <-. split; [exact Hs|]. exists O. split; [reflexivity|]. split; [constructor|auto].
    - intros v [].
    - right. left. reflexivity.
    - intros _ u v [].
  Qed.

  Lemma dfs_ok M fuel : (S (udeg g []) < fuel)%nat -> exists L, depth_first_search g s M fuel = (L, GEnded) /\
    NoDup L /\ In s L /\ (forall v, In v L -> v = s \/ exists n, walk g s n v /\ leM M n) /\
    (M = None -> forall v, In v L <-> reachable g s v).
  Proof.
    intros Hf. destruct (dfs_loop_ok M fuel [(s, 0)] [] (dinv_init M)) as (L & E & HL); [cbn; lia|].
    exists L. split; [exact E|]. destruct HL as [H1 H2 H3 H4 H5]. rewrite app_nil_l in *.
    split; [exact H1|]. assert (HsL : In s L) by (destruct H4 as [H4|[]]; exact H4).
    split; [exact HsL|]. split; [intros v Hv; apply (H3 v Hv)|].
    intros EM v. split.
    - intros Hv. destruct (H3 v Hv) as [_ [->|(n & W & _)]]; [exists O; constructor|exists n; exact W].
    - intros [n W]. induction W as [|n u v W IH Huv]; [exact HsL|]. destruct (H5 EM u v IH Huv) as [K|[]]. exact K.
  Qed.

  (** ** The tree *)

  Lemma anc_mono prev prev' a v : (forall x, In x prev -> In x prev') -> ancestor prev a v -> ancestor prev' a v.
  Proof.
    intros H A. induction A as [v Hv|a p v Hv A IH].
    - apply anc_refl. apply in_map_iff in Hv. destruct Hv as (x & <- & Hx). apply in_map. auto.
    - apply anc_step with p; auto.
  Qed.

  Lemma anc_trans prev a b c : ancestor prev a b -> ancestor prev b c -> ancestor prev a c.
  Proof. intros A B. induction B as [v Hv|b p v Hv B IH]; [exact A|]. apply anc_step with p; auto. Qed.

  Lemma anc_key prev a v : ancestor prev a v -> In v (map fst prev).
  Proof. intros [v' H|a' p v' H _]; [exact H|]. apply in_map_iff. exists (v', Some p). auto. Qed.

  Record tdinv (st : list (Z * Z)) (prev : list (Z * option Z)) : Prop := {
    t_tr : rooted_tree g s prev;
    t_re : forall v, In v (map fst prev) -> reachable g s v /\ vertex g v;
    t_st : forall p v, In (p, v) st -> edge g p v /\ In p (map fst prev);
    t_ch : StronglySorted (fun x y => ancestor prev (fst y) (fst x)) st;
    t_cl : forall u v, In u (map fst prev) -> edge g u v -> In v (map fst prev) \/ In (u, v) st;
    t_ed : forall u v, In u (map fst prev) -> In v (map fst prev) -> edge g u v -> ancestor prev u v \/ ancestor prev v u }.

  Definition some_st (st : list (Z * Z)) : list (option Z * Z) := map (fun x => (Some (fst x), snd x)) st.

  Lemma edge_sym u v : edge g u v -> edge g v u.
  Proof. intros [w E]. exists w. destruct Hg as (_ & _ & _ & H). rewrite H. exact E. Qed.

  Lemma dfst_loop_ok : forall fuel st prev, tdinv st prev -> (length st + udeg g (map fst prev) <= fuel)%nat ->
    exists prev', dfst_loop g fuel (some_st st) prev = Ret prev' /\ tdinv [] prev'.
  Proof.
    induction fuel as [|fuel IH]; intros st prev HI Hf.
    { destruct st as [|x st]; [|cbn in Hf; lia]. exists prev. cbn. auto. }
    destruct st as [|[p v] st]; [exists prev; cbn; auto|]. cbn [some_st map dfst_loop fst snd]. cbn [length] in Hf.
    destruct (dmem prev v) eqn:Ev.
    - apply dmem_In in Ev. unfold dkeys in Ev. apply IH; [|lia]. destruct HI as [H1 H2 H3 H4 H5 H6]. constructor; auto.
      + intros q w Hw. apply H3. right. exact Hw.
      + inversion_clear H4 as [|? ? H4' _]. exact H4'.
      + intros x y Hx Hxy. destruct (H5 x y Hx Hxy) as [K|[E|K]]; auto. injection E as _ <-. auto.
    - assert (Hv : ~ In v (map fst prev)) by (intros H; apply dmem_In in H; congruence).
      destruct HI as [H1 H2 H3 H4 H5 H6]. destruct (H3 p v (or_introl eq_refl)) as [Epv Hp].
      assert (Vv : vertex g v) by (destruct Hg as (_ & _ & K & _); apply (K p); exact Epv).
      destruct (adj_row g Hg v Vv) as (a & Ea & Na & Ha).
      assert (Eg : g_adj g v = Ret a) by (unfold g_adj, dgetM; rewrite Ea; reflexivity). rewrite Eg. cbn [bind].
      rewrite dset_new by exact Hv.
      replace (rev (map (fun w => (Some v, w)) (dkeys a)) ++ map (fun x => (Some (fst x), snd x)) st)
        with (some_st (rev (map (fun w => (v, w)) (dkeys a)) ++ st))
        by (unfold some_st; rewrite map_app, map_rev, map_map; reflexivity).
      assert (Em : forall x, In x prev -> In x (prev ++ [(v, Some p)])) by (intros; apply in_or_app; auto).
      destruct H1 as (T1 & T2 & T3 & T4).
      assert (Ap : forall q, ancestor prev q p -> ancestor (prev ++ [(v, Some p)]) q v).
      { intros q Hq. apply anc_step with p; [apply in_or_app; right; left; reflexivity|]. apply (anc_mono prev); auto. }
      assert (Chain : forall q w, In (q, w) ((p, v) :: st) -> ancestor prev q p).
      { intros q w [E|Hq]; [injection E as <- <-; apply anc_refl; exact Hp|].
        inversion_clear H4 as [|? ? _ Hf4]. rewrite Forall_forall in Hf4. apply (Hf4 (q, w)). exact Hq. }
      assert (Avv : ancestor (prev ++ [(v, Some p)]) v v).
      { apply anc_refl. rewrite map_app. apply in_or_app. right. left. reflexivity. }
      assert (New : forall w, In w (map fst prev) -> edge g w v -> ancestor (prev ++ [(v, Some p)]) w v).
      { intros w Hw Ew. destruct (H5 w v Hw Ew) as [K|K]; [destruct (Hv K)|]. apply Ap. apply Chain with v. exact K. }
      apply IH.
      + constructor.
        * split; [|split; [|split]].
          -- rewrite map_app. apply NoDup_app_intro; [exact T1|repeat constructor; intros []|].
             intros x Hx [<-|[]]. auto.
          -- intros x. rewrite in_app_iff, T2. cbn. split; [intros [K|[K|[]]]; [exact K|discriminate]|auto].
          -- intros x q Hx. apply in_app_iff in Hx. destruct Hx as [Hx|[E|[]]]; [auto|]. injection E as <- <-. exact Epv.
          -- intros x Hx. rewrite map_app, in_app_iff in Hx. destruct Hx as [Hx|[<-|[]]].
             ++ apply (anc_mono prev); auto.
             ++ apply Ap. apply T4. exact Hp.
        * intros x Hx. rewrite map_app, in_app_iff in Hx. destruct Hx as [Hx|[<-|[]]]; [auto|]. split; [|exact Vv].
          destruct (H2 p Hp) as [[n W] _]. exists (S n). apply walk_S with p; assumption.
        * intros q w Hw. rewrite map_app, in_app_iff. apply in_app_iff in Hw. destruct Hw as [Hw|Hw].
          -- apply in_rev in Hw. apply in_map_iff in Hw. destruct Hw as (x & E & Hw). injection E as <- <-.
             split; [apply Ha; exact Hw|]. right. left. reflexivity.
          -- destruct (H3 q w (or_intror Hw)) as [A B]. auto.
        * apply ss_app. split; [|split].
          -- assert (K : forall l : list (Z * Z), (forall x, In x l -> fst x = v) ->
               StronglySorted (fun x y => ancestor (prev ++ [(v, Some p)]) (fst y) (fst x)) l).
             { clear - Avv. induction l as [|x l IH]; intros H; constructor.
               - apply IH. intros y Hy. apply H. right. exact Hy.
               - apply Forall_forall. intros y Hy. rewrite (H x), (H y) by (cbn; auto). exact Avv. }
             apply K. intros x Hx. apply in_rev in Hx. apply in_map_iff in Hx. destruct Hx as (y & <- & _). reflexivity.
          -- inversion_clear H4 as [|? ? H4' _]. clear - H4' Em.
             induction H4' as [|x l Hl IH Hx]; constructor; [exact IH|].
             rewrite Forall_forall in *. intros y Hy. apply (anc_mono prev); auto.
          -- intros x [q w] Hx Hq. apply in_rev in Hx. apply in_map_iff in Hx. destruct Hx as (y & <- & _). cbn [fst].
             apply Ap. apply Chain with w. right. exact Hq.
        * intros x y Hx Hxy. rewrite map_app, !in_app_iff in *. cbn [map fst In] in *.
          destruct Hx as [Hx|[<-|[]]].
          -- destruct (H5 x y Hx Hxy) as [K|[E|K]]; [auto| |auto]. injection E as <- <-. auto.
          -- right. left. apply -> in_rev. apply in_map. apply Ha. exact Hxy.
        * intros x y Hx Hy Hxy. rewrite map_app, in_app_iff in Hx, Hy.
          destruct Hx as [Hx|[<-|[]]], Hy as [Hy|[<-|[]]].
          -- destruct (H6 x y Hx Hy Hxy) as [K|K]; [left|right]; apply (anc_mono prev); auto.
          -- left. apply New; assumption.
          -- right. apply New; [assumption|apply edge_sym; exact Hxy].
          -- left. exact Avv.
      + rewrite map_app. cbn [map fst]. rewrite (udeg_visit g _ v a (proj1 Hg) Ea Hv) in Hf.
        rewrite app_length, rev_length, map_length. unfold dkeys. rewrite map_length. lia.
  Qed.

  Lemma dfst_ok : exists prev, depth_first_search_tree g s = Ret prev /\ rooted_tree g s prev /\
    (forall v, In v (map fst prev) <-> reachable g s v) /\
    (forall u v, In u (map fst prev) -> edge g u v -> ancestor prev u v \/ ancestor prev v u).
  Proof.
    destruct (adj_row g Hg s Hs) as (a & Ea & Na & Ha).
    destruct (dfst_loop_ok (udeg g []) (rev (map (fun w => (s, w)) (dkeys a))) [(s, None)]) as (prev & E & HT).
    - assert (As : ancestor [(s, None)] s s) by (apply anc_refl; left; reflexivity). constructor.
      + split; [repeat constructor; intros []|]. split; [|split].
        * intros v. cbn. split; [intros [K|[]]; injection K as ->; reflexivity|intros ->; auto].
        * intros v p [K|[]]. discriminate.
        * intros v [<-|[]]. exact As.
      + intros v [<-|[]]. split; [exists O; constructor|exact Hs].
      + intros p v Hv. apply in_rev in Hv. apply in_map_iff in Hv. destruct Hv as (x & K & Hx). injection K as <- <-.
        split; [apply Ha; exact Hx|left; reflexivity].
      + assert (K : forall l : list (Z * Z), (forall x, In x l -> fst x = s) ->
          StronglySorted (fun x y => ancestor [(s, None)] (fst y) (fst x)) l).
        { clear - As. induction l as [|x l IH]; intros H; constructor.
          - apply IH. intros y Hy. apply H. right. exact Hy.
          - apply Forall_forall. intros y Hy. rewrite (H x), (H y) by (cbn; auto). exact As. }
        apply K. intros x Hx. apply in_rev in Hx. apply in_map_iff in Hx. destruct Hx as (y & <- & _). reflexivity.
      + intros u v [<-|[]] Huv. right. apply -> in_rev. apply in_map. apply Ha. exact Huv.
      + intros u v [<-|[]] [<-|[]] _. left. exact As.
    - cbn [map fst]. rewrite (udeg_visit g [] s a (proj1 Hg) Ea (fun H => H)). cbn [app].
      rewrite rev_length, map_length. unfold dkeys. rewrite map_length. lia.
    - exists prev. split.
      + unfold depth_first_search_tree. cbn [dfst_loop dmem dget].
        assert (Eg : g_adj g s = Ret a) by (unfold g_adj, dgetM; rewrite Ea; reflexivity). rewrite Eg. cbn [bind dset].
        rewrite app_nil_r. rewrite <- udeg_nil. rewrite <- E. f_equal. unfold some_st. rewrite map_rev, map_map. reflexivity.
      + destruct HT as [H1 H2 H3 H4 H5 H6]. split; [exact H1|].
        assert (C : forall u v, In u (map fst prev) -> edge g u v -> In v (map fst prev))
          by (intros u v Hu Huv; destruct (H5 u v Hu Huv) as [K|[]]; exact K).
        split.
        * intros v. split; [intros Hv; apply H2; exact Hv|]. intros [n W].
          induction W as [|n u v W IH Huv]; [|eauto].
          destruct H1 as (_ & T2 & _). apply in_map_iff. exists (s, None). split; [reflexivity|]. apply T2. reflexivity.
        * intros u v Hu Huv. apply H6; eauto.
  Qed.

  (** ** The two searches visit in the same order *)

  Lemma dfs_same : forall fuel st2 prev prev', dfst_loop g fuel st2 prev = Ret prev' ->
    forall st1, (forall x, In x st1 -> vertex g (fst x)) -> new (dkeys prev) (map fst st1) = new (dkeys prev) (map snd st2) ->
    exists L N, dkeys prev' = dkeys prev ++ L /\
      forall k, (N <= k)%nat -> dfs_loop g None k st1 (dkeys prev) = (L, GEnded).
  Proof.
    assert (Skip : forall st1 vis u l, new vis (map fst st1) = u :: l -> (forall x, In x st1 -> vertex g (fst x)) ->
      exists st1' d j, new vis (map fst st1') = l /\ (forall x, In x st1' -> vertex g (fst x)) /\ vertex g u /\
        (forall k, dfs_loop g None (j + k) st1 vis = dfs_loop g None k ((u, d) :: st1') vis)).
    { induction st1 as [|[x d] st1 IH]; intros vis u l E HV; [discriminate|].
      cbn [map fst] in E. rewrite new_cons in E. destruct (mem x vis) eqn:Ex.
      - destruct (IH vis u l E) as (st1' & d' & j & A & B & C & D); [intros; apply HV; right; assumption|].
        exists st1', d', (S j). split; [exact A|]. split; [exact B|]. split; [exact C|]. intros k. cbn [Nat.add dfs_loop].
        rewrite Ex. apply D.
      - injection E as <- <-. exists st1, d, O. split; [reflexivity|].
        split; [intros; apply HV; right; assumption|]. split; [apply (HV (x, d)); left; reflexivity|]. intros k. reflexivity. }
    assert (SkipN : forall st1 vis, new vis (map fst st1) = [] ->
      forall k, (S (length st1) <= k)%nat -> dfs_loop g None k st1 vis = ([], GEnded)).
    { induction st1 as [|[x d] st1 IH]; intros vis E k Hk; (destruct k as [|k]; [lia|]); [reflexivity|].
      cbn [map fst] in E. rewrite new_cons in E. cbn [dfs_loop]. destruct (mem x vis) eqn:Ex; [|discriminate].
      apply IH; [exact E|cbn in Hk; lia]. }
    assert (NewNew : forall vis u l, new (vis ++ [u]) (new vis l) = new (vis ++ [u]) l).
    { intros. unfold new. induction l as [|x l IH]; [reflexivity|]. cbn [filter]. rewrite mem_snoc.
      destruct (mem x vis) eqn:Ex; cbn [negb filter orb]; [exact IH|]. rewrite mem_snoc, Ex. cbn [orb].
      destruct (x =? u); cbn [negb]; [exact IH|]. f_equal. exact IH. }
    assert (NewApp : forall vis l l', new vis (l ++ l') = new vis l ++ new vis l') by (intros; apply filter_app).
    assert (NewRev : forall vis l, new vis (rev l) = rev (new vis l)).
    { intros. induction l as [|x l IH]; [reflexivity|]. cbn [rev]. rewrite NewApp, IH, !new_cons.
      destruct (mem x vis); cbn [rev]; [apply app_nil_r|reflexivity]. }
    assert (NewIdem : forall vis l, new vis (new vis l) = new vis l).
    { intros. induction l as [|x l IH]; [reflexivity|]. rewrite new_cons. destruct (mem x vis) eqn:Ex; [exact IH|].
      rewrite new_cons, Ex, IH. reflexivity. }
    induction fuel as [|fuel IH]; intros st2 prev prev' E st1 HV HR.
    - destruct st2 as [|x st2]; [|destruct x; discriminate]. injection E as <-. exists [], (S (length st1)).
      rewrite app_nil_r. split; [reflexivity|]. apply SkipN. exact HR.
    - destruct st2 as [|[p v] st2].
      { injection E as <-. exists [], (S (length st1)). rewrite app_nil_r. split; [reflexivity|]. apply SkipN. exact HR. }
      cbn [dfst_loop] in E. cbn [map snd] in HR. rewrite new_cons, <- dmem_mem in HR. destruct (dmem prev v) eqn:Ev.
      + apply (IH st2 prev prev' E st1 HV HR).
      + destruct (Skip _ _ _ _ HR HV) as (st1' & d & j & HR' & HV' & Vv & Hrun).
        destruct (adj_row g Hg v Vv) as (a & Ea & Na & Ha).
        assert (Eg : g_adj g v = Ret a) by (unfold g_adj, dgetM; rewrite Ea; reflexivity).
        rewrite Eg in E. cbn [bind] in E.
        assert (Hv : ~ In v (dkeys prev)) by (intros H; apply dmem_In in H; congruence).
        rewrite dset_new in E by exact Hv.
        destruct (IH _ _ _ E (rev (map (fun w => (w, d + 1)) (new (dkeys prev ++ [v]) (dkeys a))) ++ st1')) as (L & N & E1 & E2).
        * intros x Hx. apply in_app_iff in Hx. destruct Hx as [Hx|Hx]; [|auto].
          apply in_rev in Hx. apply in_map_iff in Hx. destruct Hx as (w & <- & Hw). apply new_In in Hw. cbn [fst].
          destruct Hg as (_ & _ & K & _). apply (K v). apply Ha. tauto.
        * rewrite dkeys_app. cbn [dkeys map fst]. fold (dkeys prev).
          rewrite !map_app, !NewApp, !map_rev, !map_map. cbn [fst snd]. rewrite !map_id, !NewRev, NewIdem. f_equal.
          rewrite <- NewNew, HR', NewNew. reflexivity.
        * rewrite dkeys_app in E1, E2. cbn [dkeys map fst] in E1, E2. fold (dkeys prev') in *. fold (dkeys prev) in *.
          exists (v :: L), (j + S N)%nat. split; [rewrite E1, <- app_assoc; reflexivity|].
          intros k Hk. replace k with (j + S (k - j - 1))%nat by lia. rewrite Hrun. cbn [dfs_loop].
          rewrite <- dmem_mem, Ev. cbn [deeper]. rewrite Ea. 
          change (filter (fun v0 => negb (mem v0 (dkeys prev ++ [v]))) (dkeys a)) with (new (dkeys prev ++ [v]) (dkeys a)).
          rewrite E2 by lia. reflexivity.
  Qed.
End DFS.

(** ** Components *)

Section Components.
  Context (g : graph).
  Hypothesis Hg : undirected g.

  Lemma walk_app u v w m n : walk g u m v -> walk g v n w -> walk g u (m + n) w.
  Proof.
    intros A B. induction B as [|n x y B IH E].
    - rewrite Nat.add_0_r. exact A.
    - rewrite Nat.add_succ_r. apply walk_S with x; assumption.
  Qed.

  Lemma reach_sym u v : reachable g u v -> reachable g v u.
  Proof.
    intros [n W]. induction W as [|n x y W [m IH] E]; [exists O; constructor|].
    exists (1 + m)%nat. apply walk_app with x; [|exact IH]. apply walk_S with y; [constructor|]. apply edge_sym; assumption.
  Qed.

  Lemma reach_trans u v w : reachable g u v -> reachable g v w -> reachable g u w.
  Proof. intros [m A] [n B]. exists (m + n)%nat. apply walk_app with v; assumption. Qed.

  Lemma bfs_list_ok u : vertex g u -> exists L, bfs_list g u = Ret L /\ NoDup L /\
    (forall v, In v L <-> reachable g u v) /\ forall v, In v L -> vertex g v.
  Proof.
    intros H. destruct (bfs_ok g u Hg H None (S (S (length g)))) as (L & E & N & A & _ & V); [lia|].
    exists L. unfold bfs_list. rewrite E. split; [reflexivity|]. split; [exact N|]. split; [|exact V].
    intros v. rewrite A. split.
    - intros [->|(n & W & _)]; [exists O; constructor|exists n; exact W].
    - intros [n W]. right. exists n. split; [exact W|exact I].
  Qed.

  Lemma components_ok : forall vs vis, (forall v, In v vs -> vertex g v) ->
    (forall u v, In u vis -> reachable g u v -> In v vis) ->
    exists cs, components_loop g vs vis = Ret cs /\ Forall (fun c => c <> []) cs /\ NoDup (concat cs) /\
      (forall v, In v (concat cs) -> ~ In v vis) /\
      (forall v, In v (concat cs) <-> ~ In v vis /\ exists u, In u vs /\ reachable g u v) /\
      (forall c u v, In c cs -> In u c -> (In v c <-> reachable g u v)).
  Proof.
    induction vs as [|x vs IH]; intros vis HV HC; cbn [components_loop].
    - exists []. cbn. split; [reflexivity|]. split; [constructor|]. split; [constructor|].
      split; [intros v []|]. split; [|intros c u v []]. intros v. split; [intros []|intros (_ & u & [] & _)].
    - destruct (mem x vis) eqn:Ex.
      + apply mem_In in Ex. destruct (IH vis) as (cs & E & A & B & C & D & F); [intros; apply HV; right; assumption|exact HC|].
        exists cs. rewrite E. split; [reflexivity|]. split; [exact A|]. split; [exact B|]. split; [exact C|].
        split; [|exact F]. intros v. rewrite D. split; intros (H1 & u & Hu & R); split; auto.
        * exists u. split; [right; exact Hu|exact R].
        * destruct Hu as [<-|Hu]; [destruct H1; apply (HC x); assumption|eauto].
      + apply mem_false in Ex. destruct (bfs_list_ok x) as (c & Ec & Nc & Rc & Vc); [apply HV; left; reflexivity|].
        rewrite Ec. cbn [bind].
        destruct (IH (vis ++ c)) as (cs & E & A & B & C & D & F).
        { intros; apply HV; right; assumption. }
        { intros u v Hu R. apply in_app_iff. apply in_app_iff in Hu. destruct Hu as [Hu|Hu]; [left; apply (HC u); assumption|].
          right. apply Rc. apply reach_trans with u; [apply Rc; exact Hu|exact R]. }
        rewrite E. cbn [bind]. exists (c :: cs). split; [reflexivity|].
        assert (Hx : In x c) by (apply Rc; exists O; constructor).
        split; [constructor; [intros ->; destruct Hx|exact A]|]. cbn [concat]. split.
        { apply NoDup_app_intro; [exact Nc|exact B|]. intros v Hv Hv2. apply (C v Hv2). apply in_or_app. auto. }
        assert (K : forall v, In v (c ++ concat cs) -> ~ In v vis).
        { intros v Hv Hv2. apply in_app_iff in Hv. destruct Hv as [Hv|Hv].
          - apply Ex. apply (HC v x Hv2). apply reach_sym. apply Rc. exact Hv.
          - apply (C v Hv). apply in_or_app. auto. }
        split; [exact K|]. split.
        { intros v. split.
          - intros Hv. split; [apply K; exact Hv|]. apply in_app_iff in Hv. destruct Hv as [Hv|Hv].
            + exists x. split; [left; reflexivity|apply Rc; exact Hv].
            + apply D in Hv. destruct Hv as (_ & u & Hu & R). exists u. split; [right; exact Hu|exact R].
          - intros (H1 & u & Hu & R). apply in_app_iff. destruct (in_dec Z.eq_dec v c) as [Hv|Hv]; [auto|right].
            apply D. split; [rewrite in_app_iff; tauto|]. destruct Hu as [<-|Hu]; [destruct Hv; apply Rc; exact R|eauto]. }
        { intros c' u v [<-|Hc] Hu; [|apply F; assumption]. rewrite Rc. split; intros H.
          - apply reach_trans with x; [apply reach_sym; apply Rc; exact Hu|exact H].
          - apply reach_trans with u; [apply Rc; exact Hu|exact H]. }
  Qed.
End Components.
