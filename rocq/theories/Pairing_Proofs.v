(** * Proofs about the pairing heap *)
From Coq Require Import ZArith List Lia Bool Permutation.
From Verif Require Import Base Lists2 Dict Pairing_Model Pairing_Spec.
Import ListNotations.
Open Scope Z_scope.

(** The pointer structure below a node, as a first-child/next-sibling tree. *)
Inductive bt := E | N (id key val : Z) (kids sibs : bt).

Fixpoint ids (t : bt) : list Z :=
  match t with E => [] | N i _ _ l r => i :: ids l ++ ids r end.
Fixpoint cont (t : bt) : list (Z * Z * Z) :=
  match t with E => [] | N i k v l r => (i, k, v) :: cont l ++ cont r end.

Fixpoint rep (st : store) (p x : option Z) (t : bt) : Prop :=
  match t with
  | E => x = None
  | N i k v l r => x = Some i /\ exists nd, st i = Some nd /\ pkey nd = k /\ pval nd = v /\
      pprev nd = p /\ rep st (Some i) (pleft nd) l /\ rep st (Some i) (pnext nd) r
  end.

(** A detached tree: root [i], no siblings, [prev] arbitrary. *)
Record tr := Tr { tid : Z; tkey : Z; tval : Z; tkids : bt }.
Definition tids (a : tr) := tid a :: ids (tkids a).
Definition tcont (a : tr) := (tid a, tkey a, tval a) :: cont (tkids a).
Definition rrep (st : store) (a : tr) : Prop :=
  exists nd, st (tid a) = Some nd /\ pkey nd = tkey a /\ pval nd = tval a /\ pnext nd = None /\
    rep st (Some (tid a)) (pleft nd) (tkids a).

(** Heap order. *)
Fixpoint ord (b : Z) (t : bt) : Prop :=
  match t with E => True | N _ k _ l r => b <= k /\ ord k l /\ ord b r end.
Definition tord (a : tr) : Prop := ord (tkey a) (tkids a).

Lemma cont_ids t : map (fun c => fst (fst c)) (cont t) = ids t.
Proof. induction t; cbn [cont ids map]; [reflexivity|]. rewrite map_app, IHt1, IHt2. reflexivity. Qed.

Lemma supd_same st i nd : supd st i nd i = Some nd.
Proof. unfold supd. rewrite Z.eqb_refl. reflexivity. Qed.
Lemma supd_other st i nd j : j <> i -> supd st i nd j = st j.
Proof. intros H. unfold supd. destruct (Z.eqb_spec j i); congruence. Qed.

Lemma rep_frame st st' t : forall p x, rep st p x t -> (forall i, In i (ids t) -> st' i = st i) -> rep st' p x t.
Proof.
  induction t as [|i k v l IHl r IHr]; intros p x H F; [exact H|].
  destruct H as (H1 & nd & H2 & H3 & H4 & H5 & H6 & H7). cbn [ids] in F. split; [exact H1|].
  exists nd. rewrite F by (left; reflexivity).
  refine (conj H2 (conj H3 (conj H4 (conj H5 (conj _ _))))).
  - apply IHl; [exact H6|]. intros j Hj. apply F. right. apply in_or_app; auto.
  - apply IHr; [exact H7|]. intros j Hj. apply F. right. apply in_or_app; auto.
Qed.

Lemma rrep_frame st st' a : rrep st a -> (forall i, In i (tids a) -> st' i = st i) -> rrep st' a.
Proof.
  intros (nd & H1 & H2 & H3 & H4 & H5) F. exists nd. unfold tids in F.
  rewrite F by (left; reflexivity). refine (conj H1 (conj H2 (conj H3 (conj H4 _)))).
  apply (rep_frame st); [exact H5|]. intros j Hj. apply F. right; auto.
Qed.

Lemma rep_ptr st p x t : rep st p x t -> x = match t with E => None | N i _ _ _ _ => Some i end.
Proof. destruct t; cbn; tauto. Qed.

(** [fix_prev] re-parents a sibling chain. *)
Lemma fix_prev_ok st p x t q : rep st p x t -> NoDup (ids t) ->
  exists st', fix_prev st x q = Ret st' /\ rep st' q x t /\ (forall j, ~ In j (ids t) -> st' j = st j).
Proof.
  intros H N. destruct t as [|i k v l r].
  - cbn in H. subst. exists st. cbn. auto.
  - destruct H as (-> & nd & H2 & H3 & H4 & H5 & H6 & H7). cbn [fix_prev modify]. rewrite H2.
    eexists. split; [reflexivity|]. cbn [ids] in *. inversion N as [|? ? N1 N2]; subst.
    split.
    + split; [reflexivity|]. eexists. rewrite supd_same. split; [reflexivity|]. cbn.
      refine (conj eq_refl (conj eq_refl (conj eq_refl (conj _ _)))).
      * apply (rep_frame st); [exact H6|]. intros j Hj. apply supd_other. intros ->. apply N1, in_or_app; auto.
      * apply (rep_frame st); [exact H7|]. intros j Hj. apply supd_other. intros ->. apply N1, in_or_app; auto.
    + intros j Hj. apply supd_other. intros ->. apply Hj. left; reflexivity.
Qed.

Definition lnk (a b : tr) : tr :=
  if tkey b <? tkey a then
    Tr (tid b) (tkey b) (tval b) (N (tid a) (tkey a) (tval a) (tkids a) (tkids b))
  else
    Tr (tid a) (tkey a) (tval a) (N (tid b) (tkey b) (tval b) (tkids b) (tkids a)).

Lemma ord_le b b' t : b' <= b -> ord b t -> ord b' t.
Proof. revert b. induction t; cbn [ord]; intros b H; [auto|]. intros (H1 & H2 & H3). split; [lia|]. eauto. Qed.

Lemma lnk_ord a b : tord a -> tord b -> tord (lnk a b).
Proof.
  unfold tord, lnk. intros Ha Hb. destruct (Z.ltb_spec (tkey b) (tkey a)); cbn [tkey tkids ord].
  - split; [lia|auto].
  - split; [lia|auto].
Qed.

Lemma lnk_cont a b : Permutation (tcont (lnk a b)) (tcont a ++ tcont b).
Proof.
  unfold tcont, lnk. destruct (tkey b <? tkey a); cbn [tid tkey tval tkids cont].
  - apply (Permutation_middle (_ :: cont (tkids a))).
  - cbn [app]. constructor. apply Permutation_cons_app. apply Permutation_app_comm.
Qed.

Lemma tcont_tids a : map (fun c => fst (fst c)) (tcont a) = tids a.
Proof. unfold tcont, tids. cbn. rewrite cont_ids. reflexivity. Qed.

Lemma lnk_ids a b : Permutation (tids (lnk a b)) (tids a ++ tids b).
Proof. rewrite <- !tcont_tids, <- map_app. apply Permutation_map, lnk_cont. Qed.

Lemma link_ok st a b : rrep st a -> rrep st b -> NoDup (tids a ++ tids b) ->
  exists st', link_nodes st (Some (tid a)) (Some (tid b)) = Ret (st', Some (tid (lnk a b))) /\
    rrep st' (lnk a b) /\ (forall j, ~ In j (tids a ++ tids b) -> st' j = st j).
Proof.
  intros (na & A1 & A2 & A3 & A4 & A5) (nb & B1 & B2 & B3 & B4 & B5) ND.
  destruct a as [i ki vi li], b as [j kj vj lj]. unfold tids in *. cbn [tid tkey tval tkids app] in *.
  inversion ND as [|? ? N1 N2]; subst. apply NoDup_app_inv in N2. destruct N2 as (N2 & N3 & N4).
  inversion N3 as [|? ? N5 N6]; subst.
  assert (Hij : j <> i). { intros ->. apply N1, in_or_app. right; left; reflexivity. }
  assert (Hil : ~ In i (ids li)) by (intros X; apply N1, in_or_app; auto).
  assert (Hilj : ~ In i (ids lj)) by (intros X; apply N1, in_or_app; right; right; auto).
  assert (Hjl : ~ In j (ids li)) by (intros X; apply (N4 j X); left; reflexivity).
  assert (Hd : forall z, In z (ids li) -> ~ In z (ids lj)) by (intros z X Y; apply (N4 z X); right; auto).
  unfold link_nodes, lnk. cbn [deref tkey]. rewrite A1, B1. cbn [bind].
  destruct (pkey nb <? pkey na) eqn:K.
  - cbn [modify]. rewrite B1. cbn [bind].
    rewrite supd_other by auto. rewrite A1. cbn [bind deref].
    rewrite (supd_other _ i) by auto. rewrite supd_same. cbn [bind modify].
    rewrite supd_same. cbn [bind deref]. rewrite supd_same. cbn [bind set_prev pleft set_next pnext].
    match goal with |- context [fix_prev ?s (pleft nb) (Some i)] => set (s1 := s) end.
    assert (R1 : rep s1 (Some j) (pleft nb) lj).
    { apply (rep_frame st); [exact B5|]. intros z Hz. unfold s1.
      rewrite !supd_other; [reflexivity| | |]; intros ->; tauto. }
    destruct (fix_prev_ok s1 (Some j) (pleft nb) lj (Some i) R1 N6) as (s2 & E2 & R2 & F2).
    rewrite E2. cbn [bind modify]. rewrite (F2 j N5). unfold s1. rewrite (supd_other _ i) by auto.
    rewrite (supd_other _ i) by auto. rewrite supd_same. cbn [bind].
    eexists. split; [reflexivity|]. split.
    + unfold rrep. cbn [tid tkey tval tkids]. rewrite supd_same. eexists. split; [reflexivity|]. cbn [pkey pval pnext pleft pprev set_prev set_left rep].
      refine (conj eq_refl (conj eq_refl (conj B4 (conj eq_refl _)))).
      eexists. rewrite supd_other by auto. rewrite (F2 i Hilj). unfold s1. rewrite supd_same. split; [reflexivity|].
      cbn [pkey pval pnext pleft pprev set_prev set_next].
      refine (conj eq_refl (conj eq_refl (conj eq_refl (conj _ _)))).
      * apply (rep_frame st); [exact A5|]. intros z Hz.
        rewrite supd_other by (intros ->; tauto). rewrite F2 by auto. unfold s1.
        rewrite !supd_other; [reflexivity| | |]; intros ->; tauto.
      * apply (rep_frame s2); [exact R2|]. intros z Hz. apply supd_other. intros ->; tauto.
    + intros z Hz. cbn [In] in Hz. rewrite in_app_iff in Hz. cbn [In] in Hz. rewrite supd_other by (intros ->; apply Hz; tauto).
      rewrite F2 by tauto. unfold s1. rewrite !supd_other; [reflexivity| | |]; intros ->; apply Hz; tauto.
  - cbn [modify]. rewrite B1. cbn [bind deref]. rewrite supd_same. cbn [bind modify].
    rewrite supd_other by auto. rewrite A1. cbn [bind deref]. rewrite supd_same.
    cbn [bind pnext set_next set_prev]. rewrite B4. cbn [fix_prev bind deref]. rewrite supd_same.
    cbn [bind modify pleft set_next]. rewrite (supd_other _ i) by auto. rewrite supd_same. cbn [bind deref].
    rewrite supd_same. cbn [bind pnext set_next].
    match goal with |- context [fix_prev ?s (pleft na) (Some j)] => set (s1 := s) end.
    assert (R1 : rep s1 (Some i) (pleft na) li).
    { apply (rep_frame st); [exact A5|]. intros z Hz. unfold s1.
      rewrite !supd_other; [reflexivity| | |]; intros ->; tauto. }
    destruct (fix_prev_ok s1 (Some i) (pleft na) li (Some j) R1 N2) as (s2 & E2 & R2 & F2).
    rewrite E2. cbn [bind modify]. rewrite (F2 i Hil). unfold s1. rewrite (supd_other _ j) by auto.
    rewrite supd_same. cbn [bind].
    eexists. split; [reflexivity|]. split.
    + unfold rrep. cbn [tid tkey tval tkids]. rewrite supd_same. eexists. split; [reflexivity|]. cbn [pkey pval pnext pleft pprev set_next set_prev set_left rep].
      refine (conj eq_refl (conj eq_refl (conj eq_refl (conj eq_refl _)))).
      eexists. rewrite supd_other by auto. rewrite (F2 j Hjl). unfold s1. rewrite supd_same. split; [reflexivity|].
      cbn [pkey pval pnext pleft pprev set_prev set_next].
      refine (conj eq_refl (conj eq_refl (conj eq_refl (conj _ _)))).
      * apply (rep_frame st); [exact B5|]. intros z Hz.
        rewrite supd_other by (intros ->; tauto). rewrite F2 by (intros X; apply (Hd z); auto). unfold s1.
        rewrite !supd_other; [reflexivity| | |]; intros ->; tauto.
      * apply (rep_frame s2); [exact R2|]. intros z Hz. apply supd_other. intros ->; tauto.
    + intros z Hz. cbn [In] in Hz. rewrite in_app_iff in Hz. cbn [In] in Hz. rewrite supd_other by (intros ->; apply Hz; tauto).
      rewrite F2 by tauto. unfold s1. rewrite !supd_other; [reflexivity| | |]; intros ->; apply Hz; tauto.
Qed.

(** Collections of detached trees. *)
Definition forest (st : store) (L : list tr) : Prop :=
  Forall (rrep st) L /\ NoDup (flat_map tids L) /\ Forall tord L.

Lemma forest_perm st L L' : Permutation L L' -> forest st L -> forest st L'.
Proof.
  intros P (H1 & H2 & H3). split; [|split].
  - rewrite Forall_forall in *. intros a Ha. apply H1. eapply Permutation_in; [symmetry; exact P|exact Ha].
  - eapply Permutation_NoDup; [|exact H2]. apply Permutation_flat_map, P.
  - rewrite Forall_forall in *. intros a Ha. apply H3. eapply Permutation_in; [symmetry; exact P|exact Ha].
Qed.

Lemma forest_link st a b L : forest st (a :: b :: L) ->
  exists st', link_nodes st (Some (tid a)) (Some (tid b)) = Ret (st', Some (tid (lnk a b))) /\
    forest st' (lnk a b :: L) /\ (forall j, ~ In j (tids a ++ tids b) -> st' j = st j).
Proof.
  intros (H1 & H2 & H3). inversion H1 as [|? ? Ha H1']; subst. inversion H1' as [|? ? Hb HL]; subst.
  inversion H3 as [|? ? Oa H3']; subst. inversion H3' as [|? ? Ob OL]; subst.
  cbn [flat_map] in H2. rewrite app_assoc in H2. apply NoDup_app_inv in H2. destruct H2 as (N1 & N2 & N3).
  destruct (link_ok st a b Ha Hb N1) as (st' & E1 & R & F). exists st'. split; [exact E1|]. split; [|exact F].
  split; [|split].
  - constructor; [exact R|]. rewrite Forall_forall in *. intros c Hc. apply (rrep_frame st); [auto|].
    intros j Hj. apply F. intros X. apply (N3 j X). apply in_flat_map. eauto.
  - cbn [flat_map]. eapply Permutation_NoDup; [apply Permutation_app_tail; symmetry; apply lnk_ids|].
    apply NoDup_app_intro; auto.
  - constructor; [apply lnk_ord; auto|exact OL].
Qed.

Lemma flat_tids L : flat_map tids L = map (fun c => fst (fst c)) (flat_map tcont L).
Proof.
  induction L as [|a L IH]; [reflexivity|]. cbn [flat_map]. rewrite map_app, IH, tcont_tids. reflexivity.
Qed.

Lemma link_all_ok P : forall st a, forest st (a :: P) ->
  exists st' c, link_all st (Some (tid a)) (map (fun t => Some (tid t)) P) = Ret (st', Some (tid c)) /\
    forest st' [c] /\ Permutation (tcont c) (flat_map tcont (a :: P)) /\
    (forall j, ~ In j (flat_map tids (a :: P)) -> st' j = st j).
Proof.
  induction P as [|b P IH]; intros st a H.
  - exists st, a. cbn. rewrite app_nil_r. split; [reflexivity|]. split; [exact H|]. split; [reflexivity|auto].
  - cbn [map link_all]. destruct (forest_link st a b P H) as (st1 & E1 & F1 & G1). rewrite E1. cbn [bind].
    destruct (IH st1 (lnk a b) F1) as (st' & c & E2 & F2 & P2 & G2). exists st', c. split; [exact E2|].
    split; [exact F2|]. split.
    + rewrite P2. cbn [flat_map]. rewrite app_assoc. apply Permutation_app_tail, lnk_cont.
    + intros j Hj. cbn [flat_map] in Hj. rewrite G2, G1; [reflexivity| |].
      * intros X. apply Hj. rewrite app_assoc. apply in_or_app; auto.
      * intros X. apply Hj. rewrite app_assoc. cbn [flat_map] in X. apply in_app_or in X. apply in_or_app.
        destruct X as [X|X]; [left|right; exact X]. eapply Permutation_in; [apply lnk_ids|exact X].
Qed.

Lemma pair_up_ok n : forall st (r P : list tr), (length r <= n)%nat -> forest st (r ++ P) ->
  exists st' P' lft, pair_up st (map tid r) (map (fun t => Some (tid t)) P) =
      Ret (st', map (fun t => Some (tid t)) P', map tid lft) /\ (length lft <= 1)%nat /\
    forest st' (lft ++ P') /\ Permutation (flat_map tcont (lft ++ P')) (flat_map tcont (r ++ P)) /\
    (forall j, ~ In j (flat_map tids (r ++ P)) -> st' j = st j).
Proof.
  induction n as [|n IH]; intros st r P L H.
  - destruct r; [|cbn in L; lia]. exists st, P, []. cbn. split; [reflexivity|]. split; [lia|]. split; [exact H|]. split; [reflexivity|auto].
  - destruct r as [|a [|b r]].
    + exists st, P, []. cbn. split; [reflexivity|]. split; [lia|]. split; [exact H|]. split; [reflexivity|auto].
    + exists st, P, [a]. cbn. split; [reflexivity|]. split; [lia|]. split; [exact H|]. split; [reflexivity|auto].
    + cbn [map pair_up]. cbn [app] in H. destruct (forest_link st a b (r ++ P) H) as (st1 & E1 & F1 & G1).
      rewrite E1. cbn [bind].
      assert (F1' : forest st1 (r ++ lnk a b :: P)).
      { eapply forest_perm; [|exact F1]. apply Permutation_middle. }
      destruct (IH st1 r (lnk a b :: P)) as (st' & P' & lft & E2 & L2 & F2 & P2 & G2); [cbn in L; lia|exact F1'|].
      exists st', P', lft. cbn [map] in E2. split; [exact E2|]. split; [exact L2|]. split; [exact F2|].
      assert (PP : Permutation (flat_map tcont (r ++ lnk a b :: P)) (flat_map tcont (a :: b :: r ++ P))).
      { rewrite <- (Permutation_flat_map tcont (Permutation_middle r P (lnk a b))). cbn [flat_map].
        rewrite app_assoc. apply Permutation_app_tail, lnk_cont. }
      split; [rewrite P2; exact PP|].
      intros j Hj. rewrite G2, G1; [reflexivity| |].
      * intros X. apply Hj. cbn [app flat_map]. rewrite app_assoc. apply in_or_app; auto.
      * intros X. apply Hj. cbn [app]. rewrite flat_tids in *. eapply Permutation_in; [|exact X].
        apply Permutation_map, PP.
Qed.

Fixpoint trees (t : bt) : list tr :=
  match t with E => [] | N i k v l r => Tr i k v l :: trees r end.

Lemma trees_cont t : flat_map tcont (trees t) = cont t.
Proof. induction t; [reflexivity|]. cbn [trees flat_map cont]. rewrite IHt2. reflexivity. Qed.
Lemma trees_ids t : flat_map tids (trees t) = ids t.
Proof. rewrite flat_tids, trees_cont, cont_ids. reflexivity. Qed.
Lemma trees_ord b t : ord b t -> Forall tord (trees t).
Proof.
  induction t as [|i k v l IHl r IHr]; cbn [ord trees]; intros H; constructor; [|tauto]. unfold tord. cbn. tauto.
Qed.

Lemma collect_ok t : forall fuel st q x ndq, st q = Some ndq -> rep st (Some q) x t ->
  NoDup (q :: ids t) -> (length (ids t) <= fuel)%nat ->
  exists st', collect fuel st x = Ret (st', map tid (trees t)) /\ Forall (rrep st') (trees t) /\
    (forall j, ~ In j (q :: ids t) -> st' j = st j) /\
    st' q = Some (match t with E => ndq | _ => set_next None ndq end).
Proof.
  induction t as [|i k v l IHl r IHr]; intros fuel st q x ndq Hq H ND L.
  - cbn in H. subst. exists st. destruct fuel; cbn; auto.
  - destruct H as (-> & nd & H2 & H3 & H4 & H5 & H6 & H7).
    cbn [ids] in *. inversion ND as [|? ? N1 N2]; subst. inversion N2 as [|? ? N3 N4]; subst.
    apply NoDup_app_inv in N4. destruct N4 as (N4 & N5 & N6).
    assert (Hqi : q <> i) by (intros ->; apply N1; left; reflexivity).
    assert (Hql : ~ In q (ids l)) by (intros X; apply N1; right; apply in_or_app; auto).
    assert (Hqr : ~ In q (ids r)) by (intros X; apply N1; right; apply in_or_app; auto).
    assert (Hil : ~ In i (ids l)) by (intros X; apply N3, in_or_app; auto).
    assert (Hir : ~ In i (ids r)) by (intros X; apply N3, in_or_app; auto).
    destruct fuel as [|f]; [cbn in L; lia|]. cbn [collect deref]. rewrite H2. cbn [bind]. rewrite H5.
    cbn [modify]. rewrite Hq. cbn [bind]. rewrite supd_other by auto. rewrite H2. cbn [bind].
    destruct (IHr f (supd st q (set_next None ndq)) i (pnext nd) nd) as (st' & E1 & F1 & G1 & Q1).
    + rewrite supd_other by auto. exact H2.
    + apply (rep_frame st); [exact H7|]. intros j Hj. apply supd_other. intros ->; tauto.
    + constructor; auto.
    + cbn [length] in L. rewrite app_length in L. lia.
    + rewrite E1. cbn [bind trees map]. exists st'. split; [reflexivity|]. split; [|split].
      * constructor; [|exact F1]. eexists. cbn [tid tkey tval tkids]. split; [exact Q1|].
        assert (Hl : rep st' (Some i) (pleft nd) l).
        { apply (rep_frame st); [exact H6|]. intros j Hj. rewrite G1.
          - apply supd_other. intros ->; tauto.
          - intros [->|X]; [tauto|]. apply (N6 j); auto. }
        destruct r; cbn [set_next pkey pval pnext pleft]; auto 6.
      * intros j Hj. rewrite G1.
        -- apply supd_other. intros ->. apply Hj. left; reflexivity.
        -- intros [->|X]; apply Hj; right; [left; reflexivity|right; apply in_or_app; auto].
      * rewrite G1 by (intros [X|X]; [congruence|tauto]). apply supd_same.
Qed.

Lemma combine_ok fuel st q x ndq t b : st q = Some ndq -> rep st (Some q) x t -> t <> E -> ord b t ->
  NoDup (q :: ids t) -> (length (ids t) <= fuel)%nat ->
  exists st' c ndq', combine_siblings fuel st x = Ret (st', Some (tid c)) /\ forest st' [c] /\
    Permutation (tcont c) (cont t) /\
    st' q = Some ndq' /\ pkey ndq' = pkey ndq /\ pval ndq' = pval ndq.
Proof.
  intros Hq H Ht O ND L. destruct t as [|i k v l r]; [congruence|]. clear Ht.
  pose proof H as (-> & nd & H2 & H3 & H4 & H5 & H6 & H7). unfold combine_siblings.
  cbn [deref]. rewrite H2. cbn [bind].
  destruct r as [|j kj vj lj rj].
  - cbn in H7. rewrite H7. exists st, (Tr i k v l), ndq. split; [reflexivity|].
    split; [split; [|split]|].
    + constructor; [|constructor]. exists nd. cbn. auto.
    + cbn [flat_map]. rewrite app_nil_r. unfold tids. cbn [tid tkids]. inversion ND; subst.
      cbn [ids] in *. rewrite app_nil_r in *. assumption.
    + constructor; [|constructor]. unfold tord. cbn in *. tauto.
    + unfold tcont. cbn [cont tid tkey tval tkids]. rewrite app_nil_r. auto.
  - destruct H7 as [H7 _]. rewrite H7.
    remember (N i k v l (N j kj vj lj rj)) as t eqn:Et.
    destruct (collect_ok t fuel st q (Some i) ndq Hq H ND L) as (s1 & E1 & F1 & G1 & Q1).
    rewrite E1. cbn [bind]. rewrite <- map_rev.
    assert (Ft : forest s1 (rev (trees t) ++ [])).
    { rewrite app_nil_r. apply (forest_perm s1 (trees t)); [apply Permutation_rev|].
      split; [exact F1|]. split; [|apply (trees_ord b), O].
      rewrite trees_ids. inversion ND; auto. }
    destruct (pair_up_ok _ s1 (rev (trees t)) [] (le_n _) Ft) as (s2 & P' & lft & E2 & L2 & F2 & P2 & G2).
    cbn [map] in E2. rewrite E2. cbn [bind]. rewrite app_nil_r in *.
    assert (Pc : Permutation (flat_map tcont (rev (trees t))) (cont t)).
    { rewrite <- trees_cont. apply Permutation_flat_map. symmetry. apply Permutation_rev. }
    assert (Qn : ~ In q (flat_map tids (rev (trees t)))).
    { intros X. inversion ND as [|? ? N1 N2]; subst. apply N1. rewrite flat_tids in X. rewrite <- cont_ids.
      eapply Permutation_in; [|exact X]. apply Permutation_map, Pc. }
    assert (Q2 : s2 q = s1 q) by (apply G2, Qn).
    assert (Qn2 : ~ In q (flat_map tids (lft ++ P'))).
    { intros X. apply Qn. rewrite flat_tids in *. eapply Permutation_in; [|exact X]. apply Permutation_map, P2. }
    assert (G : exists a L', lft ++ P' = a :: L' /\
      match map tid lft with
      | l :: _ => link_all s2 (Some l) (map (fun t => Some (tid t)) P')
      | [] => match map (fun t => Some (tid t)) P' with [] => Raise IndexError | l :: paired => link_all s2 l paired end
      end = link_all s2 (Some (tid a)) (map (fun t => Some (tid t)) L')).
    { destruct lft as [|a [|a' lft]]; [|exists a, P'; auto|cbn in L2; lia].
      destruct P' as [|a P']; [|exists a, P'; auto]. exfalso.
      cbn in P2. rewrite Pc in P2. apply Permutation_nil in P2. rewrite Et in P2. discriminate. }
    destruct G as (a & L' & EL & EG). rewrite EL in *.
    destruct (link_all_ok L' s2 a F2) as (st' & c & E3 & F3 & P3 & G3).
    exists st', c, (set_next None ndq). split; [|split; [exact F3|split]].
    + rewrite EG. exact E3.
    + rewrite P3, P2, Pc. reflexivity.
    + rewrite (G3 q Qn2), Q2, Q1. rewrite Et. auto.
Qed.
