(** * bellman_ford without negative cycles *)
From Coq Require Import ZArith List Lia Bool.
From Verif Require Import Base Py Dict Lists2 Graph_Model Graph_Spec Graph_Proofs
  Trav_Model Trav_Spec Trav_Proofs Trav_Proofs2 Paths_Model Paths_Spec Paths_Proofs Paths_Proofs2 Paths_Proofs4 Paths_Proofs5.
Import ListNotations.
Open Scope Z_scope.

Lemma not_nodup : forall l : list Z, ~ NoDup l -> exists a l1 l2 l3, l = l1 ++ a :: l2 ++ a :: l3.
Proof.
  induction l as [|x l IH]; intros H; [destruct H; constructor|].
  destruct (in_dec Z.eq_dec x l) as [Hx|Hx].
  - apply in_split in Hx. destruct Hx as (l2 & l3 & ->). exists x, [], l2, l3. reflexivity.
  - destruct IH as (a & l1 & l2 & l3 & ->).
    + intros N. apply H. constructor; assumption.
    + exists a, (x :: l1), l2, l3. reflexivity.
Qed.

Section Short.
  Context (g : graph) (s : Z).
  Hypothesis Hg : undirected g.
  Hypothesis Hs : vertex g s.
  Hypothesis HN : ~ negative_cycle g s.

  Lemma vpath_vertices l v W : vpath g s l v W -> forall x, In x l -> vertex g x.
  Proof.
    intros H. induction H as [|l v w W c H IH Hc]; intros x Hx.
    - destruct Hx as [<-|[]]. exact Hs.
    - apply in_app_iff in Hx. destruct Hx as [Hx|[<-|[]]]; [auto|]. apply (wt_vertex g Hg v w c Hc).
  Qed.

  Lemma vpath_end u l v W : vpath g u l v W -> exists l', l = l' ++ [v].
  Proof. intros H. destruct H as [|l v w W c _ _]; [exists []; reflexivity|exists l; reflexivity]. Qed.

  Lemma vpath_split u : forall l2 l1 x v W, vpath g u (l1 ++ x :: l2) v W ->
    exists W1 W2, vpath g u (l1 ++ [x]) x W1 /\ vpath g x (x :: l2) v W2 /\ W = W1 + W2.
  Proof.
    induction l2 as [|y l2 IH] using rev_ind; intros l1 x v W H.
    - destruct (vpath_end u _ v W H) as [l' E]. apply app_inj_tail in E. destruct E as [_ <-].
      exists W, 0. split; [exact H|]. split; [constructor|lia].
    - rewrite app_comm_cons, app_assoc in H. inversion H as [E1 E2 E3|l v' w W' c H' Hc E1 E2 E3].
      + exfalso. apply (f_equal (@length Z)) in E1. rewrite !app_length in E1. cbn [length] in E1. lia.
      + apply app_inj_tail in E1. destruct E1 as [-> ->]. subst v W. destruct (IH l1 x v' W' H') as (W1 & W2 & A & B & ->).
        exists W1, (W2 + c). split; [exact A|]. split; [|lia]. rewrite app_comm_cons. apply vpath_snoc with v'; assumption.
  Qed.

  Lemma vpath_join u l1 x W1 l2 v W2 : vpath g u (l1 ++ [x]) x W1 -> vpath g x (x :: l2) v W2 -> vpath g u (l1 ++ x :: l2) v (W1 + W2).
  Proof.
    intros H1 H2. remember (x :: l2) as l eqn:El. revert l2 El. induction H2 as [|l v w W c H IH Hc]; intros l2 El.
    - injection El as <-. rewrite Z.add_0_r. exact H1.
    - destruct l as [|y l]; [apply vpath_head in H; destruct H; discriminate|]. cbn [app] in El. injection El as -> <-.
      rewrite app_assoc, Z.add_assoc. apply vpath_snoc with v; [apply (IH l); reflexivity|exact Hc].
  Qed.

  Lemma short_path : forall n l v W, (length l <= n)%nat -> vpath g s l v W ->
    exists l' W', vpath g s l' v W' /\ W' <= W /\ (length l' <= length g)%nat.
  Proof.
    induction n as [n IH] using lt_wf_ind. intros l v W Hl H.
    destruct (le_lt_dec (length l) (length g)) as [Hle|Hgt]; [exists l, W; split; [exact H|]; split; [lia|exact Hle]|].
    destruct (not_nodup l) as (a & l1 & l2 & l3 & El).
    { intros N. assert ((length l <= length (map fst g))%nat) by (apply NoDup_incl_length; [exact N|intros x Hx; apply (vpath_vertices l v W H x Hx)]).
      rewrite map_length in *. lia. }
    rewrite El in H. destruct (vpath_split s _ _ _ _ _ H) as (W1 & W2 & A & B & ->).
    rewrite app_comm_cons in B. destruct (vpath_split a _ _ _ _ _ B) as (W3 & W4 & C & D & ->).
    assert (0 <= W3).
    { destruct (Z_lt_le_dec W3 0) as [Hlt|]; [|assumption]. destruct HN. exists a, W1, W3. split; [apply (vpath_wwalk g _ _ _ _ A)|].
      split; [apply (vpath_wwalk g _ _ _ _ C)|exact Hlt]. }
    pose proof (vpath_join s l1 a W1 l3 v W4 A D) as H'. subst l.
    destruct (IH (length (l1 ++ a :: l3))) with (l := l1 ++ a :: l3) (v := v) (W := W1 + W4) as (l' & W' & E1 & E2 & E3); auto.
    - rewrite !app_length in *. cbn [length] in *. rewrite app_length in Hl. cbn [length] in Hl. lia.
    - exists l', W'. split; [exact E1|]. split; [lia|exact E3].
  Qed.

  Lemma wwalk_vpath u v W : wwalk g u v W -> exists l, vpath g u l v W.
  Proof.
    intros H. induction H as [|a b W c _ [l IH] Hc]; [exists [u]; constructor|]. exists (l ++ [b]). apply vpath_snoc with a; assumption.
  Qed.

  (** ** The predecessor tree *)
  Record T (cost : dists) (prev : prevs) : Prop := {
    t_s : getD cost s = Some 0;
    t_ps : getD prev s = None;
    t_w : forall v d, getD cost v = Some d -> wwalk g s v d;
    t_p : forall v p, getD prev v = Some p -> exists dv dp c, getD cost v = Some dv /\ getD cost p = Some dp /\ weight g p v = Some c /\ dp + c <= dv;
    t_t : forall v d, getD cost v = Some d -> exists W, prev_path g prev s v W }.

  Lemma getD_prev (prev : prevs) v p : dget prev v = Some (Some p) <-> getD prev v = Some p.
  Proof. unfold getD. destruct (dget prev v) as [[q|]|]; split; congruence. Qed.

  Lemma T_step cost prev u v c du : T cost prev -> getD cost u = Some du -> weight g u v = Some c ->
    ltx (du + c) (getD cost v) = true -> T (dset cost v (Some (du + c))) (dset prev v (Some u)).
  Proof.
    intros HT Eu Ec El. pose proof (t_w _ _ HT u du Eu) as Wu.
    assert (Hneg : forall D, wwalk g v u D -> (exists dv, getD cost v = Some dv /\ dv + D <= du) -> False).
    { intros D HD (dv & Ev & Hle). rewrite Ev in El. apply ltx_true in El. apply HN. exists v, dv, (D + c).
      split; [apply (t_w _ _ HT v dv Ev)|]. split; [apply wwalk_snoc with u; assumption|lia]. }
    assert (Hvs : v <> s).
    { intros ->. rewrite (t_s _ _ HT) in El. apply ltx_true in El. apply HN. exists s, 0, (du + c).
      split; [constructor|]. split; [apply wwalk_snoc with u; assumption|exact El]. }
    assert (Hvu : v <> u) by (intros ->; apply (Hneg 0); [constructor|exists du; split; [exact Eu|lia]]).
    assert (Hnew : forall y dy, getD cost y = Some dy -> forall W, prev_path g prev s y W ->
      (exists W', prev_path g (dset prev v (Some u)) s y W') \/
      (exists D dv, wwalk g v y D /\ getD cost v = Some dv /\ dv + D <= dy)).
    { intros y dy Ey W HW. revert dy Ey. induction HW as [|y p k W Hp Hk HW IH]; intros dy Ey.
      - left. exists 0. constructor.
      - destruct (Z.eq_dec y v) as [->|Hyv].
        + right. exists 0, dy. split; [constructor|]. split; [exact Ey|lia].
        + apply getD_prev in Hp. destruct (t_p _ _ HT y p Hp) as (dy' & dp & k' & E1 & E2 & E3 & E4).
          rewrite Ey in E1. injection E1 as <-. rewrite Hk in E3. injection E3 as <-.
          destruct (IH dp E2) as [(W' & H')|(D & dv & H1 & H2 & H3)].
          * left. exists (W' + k). apply pp_step with p; [|exact Hk|exact H']. apply getD_prev. rewrite getD_dset.
            destruct (Z.eqb_spec v y); congruence.
          * right. exists (D + k), dv. split; [apply wwalk_snoc with p; assumption|]. split; [exact H2|lia]. }
    assert (Hu : exists W', prev_path g (dset prev v (Some u)) s u W').
    { destruct (t_t _ _ HT u du Eu) as [W HW]. destruct (Hnew u du Eu W HW) as [H|(D & dv & H1 & H2 & H3)]; [exact H|].
      exfalso. apply (Hneg D H1). eauto. }
    assert (Hv : exists W', prev_path g (dset prev v (Some u)) s v W').
    { destruct Hu as [W' HW']. exists (W' + c). apply pp_step with u; [|exact Ec|exact HW']. apply getD_prev. rewrite getD_dset, Z.eqb_refl. reflexivity. }
    constructor.
    - rewrite getD_dset. destruct (Z.eqb_spec v s); [congruence|]. apply HT.
    - rewrite getD_dset. destruct (Z.eqb_spec v s); [congruence|]. apply HT.
    - intros y d. rewrite getD_dset. destruct (Z.eqb_spec v y) as [->|]; [|apply HT].
      intros E. injection E as <-. apply wwalk_snoc with u; assumption.
    - intros y p. rewrite getD_dset. destruct (Z.eqb_spec v y) as [<-|Hne].
      + intros E. injection E as <-. exists (du + c), du, c. rewrite !getD_dset, Z.eqb_refl. destruct (Z.eqb_spec v u); [congruence|].
        split; [reflexivity|]. split; [exact Eu|]. split; [exact Ec|lia].
      + intros E. destruct (t_p _ _ HT y p E) as (dy & dp & k & E1 & E2 & E3 & E4). rewrite !getD_dset. destruct (Z.eqb_spec v y); [congruence|].
        destruct (Z.eqb_spec v p) as [<-|Hvp].
        * exists dy, (du + c), k. rewrite E2 in El. apply ltx_true in El. split; [exact E1|]. split; [reflexivity|]. split; [exact E3|lia].
        * exists dy, dp, k. auto.
    - intros y d Ey. destruct (Z.eq_dec y v) as [->|Hyv]; [exact Hv|]. rewrite getD_dset in Ey. destruct (Z.eqb_spec v y); [congruence|].
      destruct (t_t _ _ HT y d Ey) as [W HW]. clear Ey d n. induction HW as [|y p k W Hp Hk HW IH].
      + exists 0. constructor.
      + assert (Hp' : exists W', prev_path g (dset prev v (Some u)) s p W').
        { destruct (Z.eq_dec p v) as [->|Hpv]; [exact Hv|]. apply IH. exact Hpv. }
        destruct Hp' as [W' HW']. exists (W' + k). apply pp_step with p; [|exact Hk|exact HW']. apply getD_prev. rewrite getD_dset.
        destruct (Z.eqb_spec v y); [congruence|]. apply getD_prev. exact Hp.
  Qed.

  (** ** Phases *)
  Record Ph (k : nat) (A B : list Z) (count : list (Z * Z)) (cost : dists) (prev : prevs) : Prop := {
    ph_b : B0 g s cost (A ++ B);
    ph_t : T cost prev;
    ph_nd : NoDup (A ++ B);
    ph_ck : forall v, vertex g v -> In v (dkeys count);
    ph_c : forall v c, dget count v = Some c -> c <= Z.of_nat k + 1;
    ph_ca : forall v c, In v A -> dget count v = Some c -> c <= Z.of_nat k;
    ph_w : forall l v W, vpath g s l v W -> (length l <= S k)%nat -> exists d, getD cost v = Some d /\ d <= W;
    ph_m : forall x, ~ In x A -> forall l W v c, vpath g s l x W -> (length l <= S k)%nat -> weight g x v = Some c ->
             exists d, getD cost v = Some d /\ d <= W + c;
    ph_f : forall x, ~ In x (A ++ B) -> forall v c, weight g x v = Some c -> relaxed (getD cost) x v c;
    ph_n : (S k <= length g)%nat;
    ph_e : S k = length g -> B = [] }.

  Lemma ph_shift k B count cost prev : B <> [] -> Ph k [] B count cost prev -> Ph (S k) B [] count cost prev.
  Proof.
    intros HB H. destruct H. cbn [app] in *.
    assert (W2 : forall l v W, vpath g s l v W -> (length l <= S (S k))%nat -> exists d, getD cost v = Some d /\ d <= W).
    { intros l v W H Hl. destruct H as [|l v w W c H Hc].
      - exists 0. split; [apply (t_s _ _ ph_t0)|lia].
      - rewrite app_length in Hl. cbn [length] in Hl. apply (ph_m0 v) with l; [intros []|exact H|lia|exact Hc]. }
    constructor; rewrite ?app_nil_r; auto.
    - intros v c E. pose proof (ph_c0 v c E). lia.
    - intros v c _ E. pose proof (ph_c0 v c E). lia.
    - intros x Hx l W v c H Hl Hc. destruct (W2 l x W H Hl) as (dx & Ex & Hdx).
      destruct (ph_f0 x Hx v c Hc dx Ex) as (dv & Ev & Hdv). exists dv. split; [exact Ev|lia].
    - assert (S k <> length g) by (intros E; apply HB; apply ph_e0; exact E). lia.
  Qed.

  Lemma ph_relax k u A B count cost prev row : Ph k (u :: A) B count cost prev -> dget g u = Some row -> NoDup (map fst row) ->
    exists cost' prev' B', bf_relax u row (cost, prev, A ++ B) = Ret (cost', prev', A ++ B') /\ T cost' prev' /\ NoDup (u :: A) /\ NoDup (A ++ B') /\
      (forall v d, getD cost v = Some d -> exists d', getD cost' v = Some d' /\ d' <= d) /\
      (forall du v c, getD cost u = Some du -> weight g u v = Some c -> exists dv, getD cost' v = Some dv /\ dv <= du + c) /\
      (S k = length g -> B' = []).
  Proof.
    intros HP Er Nr. destruct (b0_v _ _ _ _ (ph_b _ _ _ _ _ _ HP) u (or_introl eq_refl)) as [Vu [du Eu]].
    pose proof (ph_nd _ _ _ _ _ _ HP) as N. cbn [app] in N.
    pose proof (b0_k _ _ _ _ (ph_b _ _ _ _ _ _ HP)) as HK0.
    assert (NA : NoDup (u :: A)).
    { inversion_clear N as [|? ? N1 N2]. constructor; [intros H; apply N1; apply in_or_app; auto|]. apply NoDup_app_inv in N2. apply N2. }
    unfold bf_relax.
    set (I := fun (done : list (Z * Z)) (st : dists * prevs * list Z) => let '(co, pr, st) := st in
      exists B', st = A ++ B' /\ keysok g co /\ T co pr /\ NoDup (A ++ B') /\
      (forall v d, getD cost v = Some d -> exists d', getD co v = Some d' /\ d' <= d) /\
      (forall v c, In (v, c) done -> exists dv, getD co v = Some dv /\ dv <= du + c) /\
      (S k = length g -> B' = [] /\ forall l v W, vpath g s l v W -> exists d, getD co v = Some d /\ d <= W)).
    match goal with |- context [foldM ?f row ?st] => destruct (foldM_inv f I row st) as ([[cost' prev'] st'] & E & (B' & -> & HK & HT & NB & Hm & Hr & He)) end.
    - cbn. exists B. split; [reflexivity|]. split; [exact HK0|]. split; [apply HP|]. split; [inversion_clear N; assumption|].
      split; [intros v d Ed; exists d; split; [exact Ed|lia]|]. split; [intros v c []|]. intros Ek. split; [apply (ph_e _ _ _ _ _ _ HP Ek)|].
      intros l v W H. destruct (short_path (length l) l v W (le_n _) H) as (l' & W' & H1 & H2 & H3).
      destruct (ph_w _ _ _ _ _ _ HP l' v W' H1) as (d & Ed & Hd); [lia|]. exists d. split; [exact Ed|lia].
    - intros pre [v c] post [[co pr] st] Erow (B' & -> & HK & HT & NB & Hm & Hr & He).
      assert (Ec : weight g u v = Some c).
      { unfold weight. rewrite Er. apply dget_In; [exact Nr|]. rewrite Erow. apply in_or_app. right. left. reflexivity. }
      pose proof (wt_vertex g Hg _ _ _ Ec) as Vv.
      rewrite (getD_ret g co u HK Vu), (getD_ret g co v HK Vv). cbn [bind].
      destruct (Hm u du Eu) as (du' & Eu' & Hdu). rewrite Eu'.
      destruct (ltx (du' + c) (getD co v)) eqn:El; eexists; (split; [reflexivity|]); cbn.
      + exists (if mem v (A ++ B') then B' else B' ++ [v]).
        assert (Hm' : forall x d, getD co x = Some d -> exists d', getD (dset co v (Some (du' + c))) x = Some d' /\ d' <= d).
        { intros x d E. rewrite getD_dset. destruct (Z.eqb_spec v x) as [->|]; [|exists d; split; [exact E|lia]].
          rewrite E in El. apply ltx_true in El. exists (du' + c). split; [reflexivity|lia]. }
        split; [destruct (mem v (A ++ B')); [reflexivity|rewrite app_assoc; reflexivity]|].
        split; [apply keysok_dset; exact HK|]. split; [apply T_step; assumption|]. split; [|split; [|split]].
        * destruct (mem v (A ++ B')) eqn:Em; [exact NB|]. apply mem_false in Em. rewrite app_assoc. apply NoDup_app_intro; [exact NB|repeat constructor; intros []|].
          intros x Hx [<-|[]]. tauto.
        * intros x d E. destruct (Hm x d E) as (d' & E' & Hd'). destruct (Hm' x d' E') as (d2 & E2 & Hd2). exists d2. split; [exact E2|lia].
        * intros y k' Hin. apply in_app_iff in Hin. destruct Hin as [Hin|[E|[]]].
          -- destruct (Hr y k' Hin) as (dy & Ey & Hy). destruct (Hm' y dy Ey) as (d2 & E2 & Hd2). exists d2. split; [exact E2|lia].
          -- injection E as <- <-. exists (du' + c). rewrite getD_dset, Z.eqb_refl. split; [reflexivity|lia].
        * intros Ek. exfalso. destruct (He Ek) as [_ Hex]. destruct (wwalk_vpath s v (du' + c)) as [l Hl].
          { apply wwalk_snoc with u; [apply (t_w _ _ HT u du' Eu')|exact Ec]. }
          destruct (Hex l v _ Hl) as (d & Ed & Hd). rewrite Ed in El. apply ltx_true in El. lia.
      + exists B'. split; [reflexivity|]. split; [exact HK|]. split; [exact HT|]. split; [exact NB|]. split; [exact Hm|]. split; [|exact He].
        intros y k' Hin. apply in_app_iff in Hin. destruct Hin as [Hin|[E|[]]]; [auto|]. injection E as <- <-.
        apply ltx_false in El. destruct El as (dv & Ev & Hv). exists dv. split; [exact Ev|lia].
    - exists cost', prev', B'. split; [exact E|]. split; [exact HT|]. split; [exact NA|]. split; [exact NB|]. split; [exact Hm|]. split.
      + intros du' v c Eu' Hc. rewrite Eu in Eu'. injection Eu' as <-. apply Hr. unfold weight in Hc. rewrite Er in Hc. apply dget_Some_In. exact Hc.
      + intros Ek. apply (He Ek).
  Qed.

  Lemma bf_loop_nn : forall fuel k A B count cost prev, Ph k A B count cost prev -> NoDup (dkeys count) ->
    bf_loop g fuel count cost prev (A ++ B) <> Raise ValueError /\
    forall cost' prev', bf_loop g fuel count cost prev (A ++ B) = Ret (cost', prev') -> T cost' prev'.
  Proof.
    induction fuel as [|fuel IH]; intros k A B count cost prev HP Nc.
    - cbn [bf_loop]. destruct (A ++ B); (split; [discriminate|]); [|discriminate]. intros cost' prev' E. injection E as <- <-. apply HP.
    - assert (Step : forall k u A B, Ph k (u :: A) B count cost prev ->
        bf_loop g (S fuel) count cost prev (u :: A ++ B) <> Raise ValueError /\
        forall cost' prev', bf_loop g (S fuel) count cost prev (u :: A ++ B) = Ret (cost', prev') -> T cost' prev').
      { clear k A B HP. intros k u A B HP. cbn [bf_loop].
        destruct (b0_v _ _ _ _ (ph_b _ _ _ _ _ _ HP) u (or_introl eq_refl)) as [Vu [du Eu]].
        pose proof (ph_ck _ _ _ _ _ _ HP u Vu) as Hk. apply dget_key in Hk. destruct Hk as [cu Ecu].
        assert (Ecu' : dgetM count u = Ret cu) by (unfold dgetM; rewrite Ecu; reflexivity). rewrite Ecu'. cbn [bind].
        pose proof (ph_ca _ _ _ _ _ _ HP u cu (or_introl eq_refl) Ecu) as Hcu. pose proof (ph_n _ _ _ _ _ _ HP) as Hkn.
        destruct (Z.leb_spec (Z.of_nat (length g) + 1) (cu + 1)) as [Hbad|_]; [lia|].
        destruct (adj_row g Hg u Vu) as (row & Er & Nr & _).
        assert (Ea : g_adj g u = Ret row) by (unfold g_adj, dgetM; rewrite Er; reflexivity). rewrite Ea. cbn [bind].
        destruct (ph_relax k u A B count cost prev row HP Er Nr) as (cost' & prev' & B' & E & HT & NA & NB & Hm & Hr & He).
        destruct (bf_relax_ok g s Hg u row cost prev (A ++ B) Er Nr) as (cost2 & prev2 & st2 & E2 & HB2 & Hf2); [|exact Vu|eauto| |].
        { destruct (ph_b _ _ _ _ _ _ HP) as [X1 X2 X3 X4]. constructor; auto. intros v Hv. apply X4. right. exact Hv. }
        { intros x Hxu Hx. apply (ph_f _ _ _ _ _ _ HP). intros [<-|Hin]; [congruence|]. exact (Hx Hin). }
        rewrite E in E2. injection E2 as <- <- <-. rewrite E. cbn [bind]. apply (IH k A B'); [|apply dset_NoDup; exact Nc].
        constructor; auto.
        - intros v Hv. apply dkeys_dset_In. left. apply (ph_ck _ _ _ _ _ _ HP v Hv).
        - intros v c Ev. rewrite dget_dset in Ev. destruct (u =? v); [injection Ev as <-; lia|]. apply (ph_c _ _ _ _ _ _ HP v c Ev).
        - intros v c Hv Ev. rewrite dget_dset in Ev. inversion_clear NA as [|? ? NA1 NA2].
          destruct (Z.eqb_spec u v) as [->|]; [tauto|]. apply (ph_ca _ _ _ _ _ _ HP v c); [right; exact Hv|exact Ev].
        - intros l v W H Hl. destruct (ph_w _ _ _ _ _ _ HP l v W H Hl) as (d & Ed & Hd). destruct (Hm v d Ed) as (d' & Ed' & Hd').
          exists d'. split; [exact Ed'|lia].
        - intros x Hx l W v c H Hl Hc. destruct (Z.eq_dec x u) as [->|Hne].
          + destruct (ph_w _ _ _ _ _ _ HP l u W H Hl) as (d & Ed & Hd). destruct (Hr d v c Ed Hc) as (dv & Edv & Hdv).
            exists dv. split; [exact Edv|lia].
          + destruct (ph_m _ _ _ _ _ _ HP x) with (l := l) (W := W) (v := v) (c := c) as (d & Ed & Hd); auto.
            { intros [<-|Hin]; tauto. }
            destruct (Hm v d Ed) as (d' & Ed' & Hd'). exists d'. split; [exact Ed'|lia]. }
      destruct A as [|u A].
      + cbn [app]. destruct B as [|u B].
        * cbn [bf_loop]. split; [discriminate|]. intros cost' prev' E. injection E as <- <-. apply HP.
        * apply ph_shift in HP; [|discriminate]. apply Step in HP. rewrite app_nil_r in HP. exact HP.
      + apply (Step k u A B HP).
  Qed.

  Lemma T_start : T (dset (all_keys g None) s (Some 0)) (all_keys g None).
  Proof.
    constructor.
    - rewrite getD_init, Z.eqb_refl. reflexivity.
    - apply getD_all.
    - apply (b0_w _ _ _ _ (B0_start g s Hs)).
    - intros v p E. rewrite getD_all in E. discriminate.
    - intros v d E. rewrite getD_init in E. destruct (Z.eqb_spec s v) as [<-|]; [|discriminate]. exists 0. constructor.
  Qed.

  Lemma bellman_ford_nn : exists cost prev, bellman_ford g s = Ret (cost, prev) /\ exact_distances g s cost /\ shortest_paths g s prev.
  Proof.
    destruct (bf_loop_nn (S (length g * length g)) 0 [s] [] (all_keys g 0) (dset (all_keys g None) s (Some 0)) (all_keys g None)) as [H1 H2].
    - constructor; cbn [app].
      + apply (B0_start g s Hs).
      + apply T_start.
      + repeat constructor. intros [].
      + intros v Hv. unfold dkeys, all_keys. rewrite map_map, map_id. exact Hv.
      + intros v c E. apply all_keys_get in E. lia.
      + intros v c _ E. apply all_keys_get in E. lia.
      + intros l v W H Hl. destruct H as [|l v w W c H Hc]; [exists 0; rewrite getD_init, Z.eqb_refl; split; [reflexivity|lia]|].
        exfalso. rewrite app_length in Hl. cbn [length] in Hl. destruct (vpath_head g s l v W H) as [l' ->]. cbn [length] in Hl. lia.
      + intros x Hx l W v c H Hl. exfalso. destruct H as [|l y x W c' H Hc']; [apply Hx; left; reflexivity|].
        rewrite app_length in Hl. cbn [length] in Hl. destruct (vpath_head g s l y W H) as [l' ->]. cbn [length] in Hl. lia.
      + intros x Hx v c _ du E. rewrite getD_init in E. destruct (Z.eqb_spec s x) as [->|]; [|discriminate]. destruct Hx. left. reflexivity.
      + unfold vertex in Hs. destruct (map fst g) as [|y l] eqn:E; [destruct Hs|]. pose proof (map_length fst g). rewrite E in H. cbn [length] in H. lia.
      + reflexivity.
    - unfold dkeys, all_keys. rewrite map_map, map_id. apply Hg.
    - destruct (bellman_ford_any g s Hg Hs) as [E|(cost & prev & E & HE & _)].
      + exfalso. apply H1. unfold bellman_ford in E. rewrite (dmem_vertex g s Hs) in E. exact E.
      + exists cost, prev. split; [exact E|]. split; [exact HE|].
        unfold bellman_ford in E. rewrite (dmem_vertex g s Hs) in E. specialize (H2 cost prev E). split; [|split].
        * intros p Ep. apply getD_prev in Ep. rewrite (t_ps _ _ H2) in Ep. discriminate.
        * intros v p Ep. apply getD_prev in Ep. destruct (t_p _ _ H2 v p Ep) as (dv & _ & _ & Ev & _). exists dv. apply (t_w _ _ H2 v dv Ev).
        * assert (Hle : forall v W, prev_path g prev s v W -> exists d, getD cost v = Some d /\ W <= d /\ wwalk g s v W).
          { intros v W HW. induction HW as [|v p c W Hp Hc HW (dp & Ep & Hle & Hw)].
            - exists 0. split; [apply H2|]. split; [lia|constructor].
            - apply getD_prev in Hp. destruct (t_p _ _ H2 v p Hp) as (dv & dp' & c' & E1 & E2 & E3 & E4). rewrite Ep in E2. injection E2 as <-.
              rewrite Hc in E3. injection E3 as <-. exists dv. split; [exact E1|]. split; [lia|]. apply wwalk_snoc with p; assumption. }
          intros v d [Hw Hmin]. destruct (HE v) as (d' & Ed & Hd').
          { destruct Hw as [|a b W c _ Hc]; [exact Hs|apply (wt_vertex g Hg a b c Hc)]. }
          destruct d' as [d'|]; [|destruct (Hd' d Hw)]. assert (Ed' : getD cost v = Some d') by (unfold getD; rewrite Ed; reflexivity).
          assert (d' = d) by (destruct Hd' as [X Y]; pose proof (Hmin _ X); pose proof (Y _ Hw); lia). subst d'.
          destruct (t_t _ _ H2 v d Ed') as [W HW]. destruct (Hle v W HW) as (d2 & E2 & Hd2 & Hww). rewrite Ed' in E2. injection E2 as <-.
          pose proof (Hmin W Hww). assert (W = d) by lia. subst W. exact HW.
  Qed.
End Short.

(** ** Negative cycles of undirected graphs are negative edges *)
Section Decide.
  Context (g : graph) (s : Z).
  Hypothesis Hg : undirected g.
  Hypothesis Hs : vertex g s.

  Lemma reach_wwalk v : reachable g s v <-> exists W, wwalk g s v W.
  Proof.
    split.
    - intros [n H]. induction H as [|n u v _ [W IH] [c Hc]]; [exists 0; constructor|]. exists (W + c). apply wwalk_snoc with u; assumption.
    - intros [W H]. induction H as [|u v W c _ [n IH] Hc]; [exists O; constructor|]. exists (S n). apply walk_S with u; [exact IH|exists c; exact Hc].
  Qed.

  Definition reach_neg_edge : Prop := exists u v c, (exists W, wwalk g s u W) /\ weight g u v = Some c /\ c < 0.

  Lemma reach_neg_edge_dec : reach_neg_edge \/ ~ reach_neg_edge.
  Proof.
    destruct (bfs_list_ok g Hg s Hs) as (L & _ & _ & HL & HV).
    assert (D : forall u, In u L -> {exists v c, weight g u v = Some c /\ c < 0} + {~ exists v c, weight g u v = Some c /\ c < 0}).
    { intros u Hu. destruct (dget g u) as [row|] eqn:Er.
      - destruct (Exists_dec (fun x : Z * Z => exists c, weight g u (fst x) = Some c /\ c < 0) row) as [H|H].
        + intros [v c]. cbn [fst]. destruct (weight g u v) as [k|]; [|right; intros (c' & E & _); discriminate].
          destruct (Z_lt_dec k 0) as [Hk|Hk]; [left; eauto|right]. intros (c' & E & Hc). injection E as <-. contradiction.
        + left. apply Exists_exists in H. destruct H as ([v c] & _ & H). exists v. exact H.
        + right. intros (v & c & E & Hc). apply H. apply Exists_exists. exists (v, c). split; [|exists c; auto].
          unfold weight in E. rewrite Er in E. apply dget_Some_In. exact E.
      - right. intros (v & c & E & _). unfold weight in E. rewrite Er in E. discriminate. }
    assert (G : forall l, incl l L -> (exists u, In u l /\ exists v c, weight g u v = Some c /\ c < 0) \/
      forall u, In u l -> ~ exists v c, weight g u v = Some c /\ c < 0).
    { induction l as [|u l IH]; intros Hi; [right; intros u []|]. destruct (D u (Hi u (or_introl eq_refl))) as [H|H].
      - left. exists u. split; [left; reflexivity|exact H].
      - destruct IH as [(x & Hx & K)|K]; [intros x Hx; apply Hi; right; exact Hx| |].
        + left. exists x. split; [right; exact Hx|exact K].
        + right. intros x [<-|Hx]; auto. }
    destruct (G L (fun x H => H)) as [(u & Hu & v & c & E & Hc)|K].
    - left. exists u, v, c. split; [apply reach_wwalk; apply HL; exact Hu|auto].
    - right. intros (u & v & c & HW & E & Hc). apply (K u); [apply HL; apply reach_wwalk; exact HW|eauto].
  Qed.

  Lemma neg_edge_cycle : reach_neg_edge -> negative_cycle g s.
  Proof.
    intros (u & v & c & (W & HW) & Hc & Hneg). exists u, W, (0 + c + c). split; [exact HW|]. split; [|lia].
    apply wwalk_snoc with v; [apply wwalk_snoc with u; [constructor|exact Hc]|]. rewrite (wt_sym g Hg). exact Hc.
  Qed.

  Lemma neg_cycle_edge : ~ reach_neg_edge -> ~ negative_cycle g s.
  Proof.
    intros N (v & W & C & HW & HC & Hneg). assert (0 <= C); [|lia].
    assert (G : forall x D, wwalk g v x D -> 0 <= D /\ exists W', wwalk g s x W').
    { intros x D HD. induction HD as [|a b D c _ [IH [W' HW']] Hc]; [split; [lia|eauto]|]. split.
      - assert (0 <= c); [|lia]. destruct (Z_lt_le_dec c 0) as [Hc0|]; [|assumption]. destruct N. exists a, b, c. eauto.
      - exists (W' + c). apply wwalk_snoc with a; assumption. }
    apply (G v C HC).
  Qed.

  Lemma bellman_ford_raise : bellman_ford g s = Raise ValueError -> negative_cycle g s.
  Proof.
    intros E. destruct reach_neg_edge_dec as [H|H]; [apply neg_edge_cycle; exact H|]. exfalso.
    destruct (bellman_ford_nn g s Hg Hs (neg_cycle_edge H)) as (cost & prev & E' & _). congruence.
  Qed.
End Decide.
