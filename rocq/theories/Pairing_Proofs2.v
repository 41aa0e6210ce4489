(** * Pairing heap: decrease_key, and the refinement theorem *)
From Coq Require Import ZArith List Lia Bool Permutation.
From Verif Require Import Base Lists2 Dict Pairing_Model Pairing_Spec Pairing_Proofs.
Import ListNotations.
Open Scope Z_scope.

Fixpoint rmv (n : Z) (t : bt) : bt :=
  match t with
  | E => E
  | N i k v l r => if i =? n then r else N i k v (rmv n l) (rmv n r)
  end.
Fixpoint sub (n : Z) (t : bt) : option (Z * Z * bt) :=
  match t with
  | E => None
  | N i k v l r => if i =? n then Some (k, v, l)
                   else match sub n l with Some x => Some x | None => sub n r end
  end.
Fixpoint setk (n key : Z) (t : bt) : bt :=
  match t with
  | E => E
  | N i k v l r => N i (if i =? n then key else k) v (setk n key l) (setk n key r)
  end.

Lemma rmv_out n t : ~ In n (ids t) -> rmv n t = t.
Proof.
  induction t as [|i k v l IHl r IHr]; cbn [ids rmv In]; intros H; [reflexivity|].
  rewrite in_app_iff in H. destruct (Z.eqb_spec i n); [tauto|]. rewrite IHl, IHr by tauto. reflexivity.
Qed.
Lemma sub_out n t : ~ In n (ids t) -> sub n t = None.
Proof.
  induction t as [|i k v l IHl r IHr]; cbn [ids sub In]; intros H; [reflexivity|].
  rewrite in_app_iff in H. destruct (Z.eqb_spec i n); [tauto|]. rewrite IHl, IHr by tauto. reflexivity.
Qed.
Lemma setk_out n key t : ~ In n (ids t) -> setk n key t = t.
Proof.
  induction t as [|i k v l IHl r IHr]; cbn [ids setk In]; intros H; [reflexivity|].
  rewrite in_app_iff in H. destruct (Z.eqb_spec i n); [tauto|]. rewrite IHl, IHr by tauto. reflexivity.
Qed.
Lemma setk_ids n key t : ids (setk n key t) = ids t.
Proof. induction t; cbn [ids setk]; [reflexivity|]. rewrite IHt1, IHt2. reflexivity. Qed.
Lemma setk_rmv n key t : NoDup (ids t) -> In n (ids t) -> rmv n (setk n key t) = rmv n t.
Proof.
  intros ND H. assert (G : forall t, ~ In n (ids t) -> rmv n (setk n key t) = rmv n t).
  { intros t0 H0. rewrite setk_out; auto. }
  induction t as [|i k v l IHl r IHr]; cbn [ids setk rmv] in *; [reflexivity|].
  inversion ND as [|? ? N1 N2]; subst. apply NoDup_app_inv in N2. destruct N2 as (N2 & N3 & N4).
  destruct (Z.eqb_spec i n).
  - subst. apply setk_out. intros X; apply N1, in_or_app; auto.
  - destruct H as [H|H]; [congruence|]. apply in_app_or in H. f_equal.
    + destruct (in_dec Z.eq_dec n (ids l)); auto.
    + destruct (in_dec Z.eq_dec n (ids r)); auto.
Qed.
Lemma setk_sub n key t k v l : NoDup (ids t) -> sub n t = Some (k, v, l) ->
  sub n (setk n key t) = Some (key, v, l).
Proof.
  induction t as [|i k0 v0 l0 IHl r IHr]; cbn [ids setk sub]; intros ND H; [discriminate|].
  inversion ND as [|? ? N1 N2]; subst. apply NoDup_app_inv in N2. destruct N2 as (N2 & N3 & N4).
  destruct (Z.eqb_spec i n).
  - subst. injection H as -> -> ->. rewrite setk_out; [reflexivity|]. intros X; apply N1, in_or_app; auto.
  - destruct (sub n l0) as [[[k1 v1] l1]|] eqn:E1.
    + rewrite IHl; auto.
    + assert (X : ~ In n (ids l0)).
      { intros X. assert (Y : sub n l0 <> None); [|congruence]. clear - X.
        induction l0 as [|i k v l IHl r IHr]; cbn [ids sub In] in *; [tauto|].
        destruct (Z.eqb_spec i n); [discriminate|]. destruct X as [X|X]; [congruence|]. apply in_app_or in X.
        destruct (sub n l); [discriminate|]. destruct X as [X|X]; [exfalso; apply (IHl X); reflexivity|auto]. }
      rewrite (sub_out n (setk n key l0)) by (rewrite setk_ids; exact X). auto.
Qed.

Lemma rep_setk st n key nd t : st n = Some nd -> forall p x, rep st p x t ->
  rep (supd st n (set_key key nd)) p x (setk n key t).
Proof.
  intros Hn. induction t as [|i k v l IHl r IHr]; intros p x H; [exact H|].
  destruct H as (H1 & nd' & H2 & H3 & H4 & H5 & H6 & H7). cbn [setk rep]. split; [exact H1|].
  destruct (Z.eqb_spec i n).
  - subst n. rewrite H2 in Hn. injection Hn as ->. eexists. rewrite supd_same. split; [reflexivity|].
    cbn. auto 10.
  - exists nd'. rewrite supd_other by auto. auto 10.
Qed.

Lemma sub_props n t b k v l : ord b t -> NoDup (ids t) -> sub n t = Some (k, v, l) ->
  ord b (rmv n t) /\ ord k l /\ Permutation (cont t) ((n, k, v) :: cont l ++ cont (rmv n t)).
Proof.
  revert b. induction t as [|i k0 v0 l0 IHl r IHr]; intros b O ND H; [discriminate|]. cbn [ids sub rmv ord cont] in *.
  inversion ND as [|? ? N1 N2]; subst. apply NoDup_app_inv in N2. destruct N2 as (N2 & N3 & N4).
  destruct O as (O1 & O2 & O3).
  destruct (Z.eqb_spec i n).
  - injection H as -> -> ->. subst. auto.
  - destruct (sub n l0) as [y|] eqn:E1.
    + injection H as ->. destruct (IHl k0 O2 N2 eq_refl) as (A & B & C).
      assert (Hin : In n (ids l0)).
      { destruct (in_dec Z.eq_dec n (ids l0)); [auto|]. rewrite sub_out in E1 by auto. discriminate. }
      rewrite (rmv_out n r) by (apply N4, Hin). cbn [ord cont]. split; [auto|]. split; [exact B|].
      rewrite C. cbn [app]. rewrite perm_swap. constructor. rewrite <- app_assoc.
      apply Permutation_middle.
    + destruct (IHr b O3 N3 H) as (A & B & C).
      assert (Hin : In n (ids r)).
      { destruct (in_dec Z.eq_dec n (ids r)); [auto|]. rewrite sub_out in H by auto. discriminate. }
      rewrite (rmv_out n l0) by (intros X; apply (N4 n X Hin)). cbn [ord cont]. split; [auto|]. split; [exact B|].
      rewrite C. rewrite <- Permutation_middle. rewrite perm_swap. constructor.
      rewrite <- (Permutation_middle (cont l)). constructor.
      rewrite !app_assoc. apply Permutation_app_tail, Permutation_app_comm.
Qed.

Definition set_field (b : bool) (x : option Z) (nd : pnode) : pnode :=
  if b then set_left x nd else set_next x nd.

Lemma cut_ok n t : forall st q x ndq (b : bool), st q = Some ndq ->
  (if b then pleft ndq = x else pnext ndq = x /\ pleft ndq <> Some n) ->
  rep st (Some q) x t -> NoDup (q :: ids t) -> In n (ids t) ->
  exists st' x' k v l, cut st n = Ret st' /\ sub n t = Some (k, v, l) /\
    st' q = Some (set_field b x' ndq) /\ rep st' (Some q) x' (rmv n t) /\
    rrep st' (Tr n k v l) /\ (forall j, ~ In j (q :: ids t) -> st' j = st j).
Proof.
  induction t as [|i k v l IHl r IHr]; intros st q x ndq b Hq Hb H ND Hin; [destruct Hin|].
  destruct H as (-> & nd & H2 & H3 & H4 & H5 & H6 & H7).
  cbn [ids] in *. inversion ND as [|? ? N1 N2]; subst. inversion N2 as [|? ? N3 N4]; subst.
  apply NoDup_app_inv in N4. destruct N4 as (N4 & N5 & N6).
  assert (Hqi : q <> i) by (intros ->; apply N1; left; reflexivity).
  assert (Hql : ~ In q (ids l)) by (intros X; apply N1; right; apply in_or_app; auto).
  assert (Hqr : ~ In q (ids r)) by (intros X; apply N1; right; apply in_or_app; auto).
  assert (Hil : ~ In i (ids l)) by (intros X; apply N3, in_or_app; auto).
  assert (Hir : ~ In i (ids r)) by (intros X; apply N3, in_or_app; auto).
  cbn [sub rmv]. destruct (Z.eqb_spec i n) as [->|Hne].
  - clear IHl IHr Hin. unfold cut. cbn [deref]. rewrite H2. cbn [bind].
    destruct (fix_prev_ok st (Some n) (pnext nd) r (pprev nd) H7 N5) as (s1 & E1 & R1 & F1).
    rewrite E1. cbn [bind]. rewrite (F1 n Hir), H2. cbn [bind]. rewrite H5 in *. cbn [deref modify].
    rewrite (F1 q Hqr), Hq. cbn [bind].
    assert (S : (if match pleft ndq with Some j => j =? n | None => false end
                 then Ret (supd s1 q (set_left (pnext nd) ndq))
                 else Ret (supd s1 q (set_next (pnext nd) ndq))) =
                Ret (supd s1 q (set_field b (pnext nd) ndq))).
    { destruct b.
      - rewrite Hb, Z.eqb_refl. reflexivity.
      - destruct Hb as [_ Hb]. destruct (pleft ndq) as [j|]; [|reflexivity].
        destruct (Z.eqb_spec j n); [subst; congruence|reflexivity]. }
    rewrite S. cbn [bind]. rewrite supd_other by auto. rewrite (F1 n Hir), H2.
    eexists _, (pnext nd), _, _, _. split; [reflexivity|]. split; [reflexivity|]. split; [|split; [|split]].
    + rewrite supd_other by auto. apply supd_same.
    + apply (rep_frame s1); [exact R1|]. intros j Hj. rewrite !supd_other; [reflexivity| |]; intros ->; tauto.
    + eexists. cbn [tid tkey tval tkids]. rewrite supd_same. split; [reflexivity|].
      cbn [set_next pkey pval pnext pleft]. refine (conj eq_refl (conj eq_refl (conj eq_refl _))).
      apply (rep_frame st); [exact H6|]. intros j Hj. rewrite !supd_other; [|intros ->; tauto|intros ->; tauto].
      apply F1. intros X. apply (N6 j); auto.
    + intros j Hj. cbn [In] in Hj. rewrite !supd_other; [|intros ->; apply Hj; tauto|intros ->; apply Hj; tauto].
      apply F1. intros X. apply Hj. right; right. apply in_or_app; auto.
  - assert (Fx : set_field b (Some i) ndq = ndq).
    { unfold set_field, set_left, set_next. destruct ndq as [a1 a2 a3 a4 a5], b; cbn [pkey pval pnext pleft pprev] in *.
      - rewrite Hb. reflexivity.
      - destruct Hb as [Hb _]. rewrite Hb. reflexivity. }
    destruct Hin as [Hin|Hin]; [congruence|]. apply in_app_or in Hin.
    destruct (in_dec Z.eq_dec n (ids l)) as [Il|Il].
    + destruct (IHl st i (pleft nd) nd true H2 eq_refl H6) as (st' & x' & k1 & v1 & l1 & E1 & S1 & Q1 & R1 & RR & F1);
        [constructor; auto|exact Il|].
      exists st', (Some i), k1, v1, l1. rewrite S1. split; [exact E1|]. split; [reflexivity|]. split; [|split; [|split]].
      * rewrite Fx. rewrite F1 by (intros [X|X]; [congruence|tauto]). exact Hq.
      * cbn [rep]. split; [reflexivity|]. rewrite Q1. eexists. split; [reflexivity|].
        cbn [set_field set_left pkey pval pprev pleft pnext].
        refine (conj eq_refl (conj eq_refl (conj H5 (conj R1 _)))).
        rewrite (rmv_out n r) by (apply N6, Il).
        apply (rep_frame st); [exact H7|]. intros j Hj. apply F1. intros [->|X]; [tauto|apply (N6 j); auto].
      * exact RR.
      * intros j Hj. apply F1. intros [->|X]; apply Hj; right; [left; reflexivity|right; apply in_or_app; auto].
    + destruct Hin as [Hin|Hin]; [tauto|].
      assert (Lp : pleft nd <> Some n).
      { rewrite (rep_ptr _ _ _ _ H6). destruct l; [discriminate|]. intros [= ->]. apply Il. left; reflexivity. }
      destruct (IHr st i (pnext nd) nd false H2 (conj eq_refl Lp) H7) as (st' & x' & k1 & v1 & l1 & E1 & S1 & Q1 & R1 & RR & F1);
        [constructor; auto|exact Hin|].
      exists st', (Some i), k1, v1, l1. rewrite (sub_out n l Il), S1. split; [exact E1|]. split; [reflexivity|]. split; [|split; [|split]].
      * rewrite Fx. rewrite F1 by (intros [X|X]; [congruence|tauto]). exact Hq.
      * cbn [rep]. split; [reflexivity|]. rewrite Q1. eexists. split; [reflexivity|].
        cbn [set_field set_next pkey pval pprev pleft pnext].
        refine (conj eq_refl (conj eq_refl (conj H5 (conj _ R1)))).
        rewrite (rmv_out n l) by exact Il.
        apply (rep_frame st); [exact H6|]. intros j Hj. apply F1. intros [->|X]; [tauto|apply (N6 j); auto].
      * exact RR.
      * intros j Hj. apply F1. intros [->|X]; apply Hj; right; [left; reflexivity|right; apply in_or_app; auto].
Qed.
