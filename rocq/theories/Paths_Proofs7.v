(** * floyd_warshall *)
From Coq Require Import ZArith List Lia Bool.
From Verif Require Import Base Py Dict Lists2 Graph_Model Graph_Spec Graph_Proofs
  Trav_Model Trav_Spec Trav_Proofs Trav_Proofs2 Paths_Model Paths_Spec Paths_Proofs Paths_Proofs2 Paths_Proofs4 Paths_Proofs5.
Import ListNotations.
Open Scope Z_scope.

Notation dmat := (Z -> Z -> option Z).

Definition lex (x y : option Z) : Prop := forall b, y = Some b -> exists a, x = Some a /\ a <= b.

Lemma lex_refl x : lex x x.
Proof. intros b E. exists b. split; [exact E|lia]. Qed.

Lemma lex_trans x y z : lex x y -> lex y z -> lex x z.
Proof. intros H1 H2 b E. destruct (H2 b E) as (a & Ea & Ha). destruct (H1 a Ea) as (c & Ec & Hc). exists c. split; [exact Ec|lia]. Qed.

Lemma ltxx_true x y : ltxx x y = true -> exists a, x = Some a /\ match y with Some b => a < b | None => True end.
Proof. destruct x as [a|]; cbn; [|discriminate]. intros H. apply ltx_true in H. eauto. Qed.

Lemma ltxx_false x y : ltxx x y = false -> lex y x.
Proof. destruct x as [a|]; cbn; [|discriminate]. intros H b E. injection E as <-. apply ltx_false in H. exact H. Qed.

Lemma ltxx_lex x y : ltxx x y = true -> lex x y.
Proof.
  intros H b E. apply ltxx_true in H. destruct H as (a & Ea & Ha). rewrite E in Ha. exists a. split; [exact Ea|lia].
Qed.

Lemma upd2_eq {A} (f : Z -> Z -> A) v w x a b : upd2 f v w x a b = if (a =? v) && (b =? w) then x else f a b.
Proof. reflexivity. Qed.

(** ** One round with [dist u u = 0] *)
Lemma round_ok u dist pred : dist u u = Some 0 -> forall L, exists dist' pred', fold_left (fw_relax u) L (dist, pred) = (dist', pred') /\
  forall v w, (In (v, w) L /\ ltxx (addx (dist v u) (dist u w)) (dist v w) = true ->
                 dist' v w = addx (dist v u) (dist u w) /\ pred' v w = pred u w) /\
              (~ (In (v, w) L /\ ltxx (addx (dist v u) (dist u w)) (dist v w) = true) ->
                 dist' v w = dist v w /\ pred' v w = pred v w).
Proof.
  intros Huu. induction L as [|[v w] L IH] using rev_ind.
  - exists dist, pred. split; [reflexivity|]. intros v w. split; [intros [[] _]|auto].
  - destruct IH as (dist' & pred' & E & H). rewrite fold_left_app, E. cbn [fold_left].
    assert (Hu : forall v, dist' v u = dist v u).
    { intros x. destruct (H x u) as [_ H2]. apply H2. intros [_ Hlt]. rewrite Huu in Hlt. apply ltxx_true in Hlt.
      destruct Hlt as (a & Ea & Ha). destruct (dist x u) as [d|]; cbn in Ea; [|discriminate]. injection Ea as <-. lia. }
    assert (Hu' : forall w, dist' u w = dist u w /\ pred' u w = pred u w).
    { intros x. destruct (H u x) as [_ H2]. apply H2. intros [_ Hlt]. rewrite Huu in Hlt. apply ltxx_true in Hlt.
      destruct Hlt as (a & Ea & Ha). destruct (dist u x) as [d|]; cbn in Ea; [|discriminate]. injection Ea as <-. lia. }
    unfold fw_relax. rewrite Hu, (proj1 (Hu' w)), (proj2 (Hu' w)).
    set (sum := addx (dist v u) (dist u w)) in *.
    destruct (ltxx sum (dist' v w)) eqn:El; eexists _, _; (split; [reflexivity|]); intros a b.
    + assert (Hno : ~ (In (v, w) L /\ ltxx sum (dist v w) = true)).
      { intros K. destruct (H v w) as [H1 _]. fold sum in H1. destruct (H1 K) as [E1 _]. rewrite E1 in El. apply ltxx_true in El.
        destruct El as (x & Ex & Hx). rewrite Ex in Hx. lia. }
      destruct (H v w) as [_ H2]. fold sum in H2. destruct (H2 Hno) as [E1 E2]. rewrite !upd2_eq.
      destruct ((a =? v) && (b =? w)) eqn:Eab.
      * apply andb_true_iff in Eab. destruct Eab as [Ea Eb]. apply Z.eqb_eq in Ea, Eb. subst a b. fold sum. split; [auto|].
        intros K. destruct K. split; [apply in_or_app; right; left; reflexivity|]. rewrite <- E1. exact El.
      * destruct (H a b) as [K1 K2]. split.
        -- intros [Hin Hlt]. apply in_app_iff in Hin. destruct Hin as [Hin|[E3|[]]]; [apply K1; auto|].
           injection E3 as -> ->. rewrite !Z.eqb_refl in Eab. discriminate.
        -- intros K. apply K2. intros [Hin Hlt]. apply K. split; [apply in_or_app; auto|exact Hlt].
    + destruct (H a b) as [K1 K2]. split.
      * intros [Hin Hlt]. apply in_app_iff in Hin. destruct Hin as [Hin|[E3|[]]]; [apply K1; auto|]. injection E3 as <- <-.
        destruct (in_dec (fun x y : Z * Z => ltac:(decide equality; apply Z.eq_dec)) (v, w) L) as [Hin|Hin]; [apply K1; auto|].
        fold sum in Hlt. destruct K2 as [E1 _]; [tauto|]. rewrite E1 in El. congruence.
      * intros K. apply K2. intros [Hin Hlt]. apply K. split; [apply in_or_app; auto|exact Hlt].
Qed.

(** ** Walks through given vertices *)
Section FW.
  Context (g : graph).
  Hypothesis Hg : undirected g.

  Inductive kw (K : list Z) (v : Z) : Z -> Z -> Prop :=
  | kw_nil : kw K v v 0
  | kw_snoc x w W c : kw K v x W -> x = v \/ In x K -> weight g x w = Some c -> kw K v w (W + c).

  Lemma kw_wwalk K v w W : kw K v w W -> wwalk g v w W.
  Proof. intros H. induction H; [constructor|econstructor; eassumption]. Qed.

  Section Nonneg.
  Hypothesis Hn : nonneg g.

  Lemma wwalk_nonneg v w W : wwalk g v w W -> 0 <= W.
  Proof. intros H. induction H as [|a b W c _ IH Hc]; [lia|]. pose proof (Hn _ _ _ Hc). lia. Qed.

  Lemma kw_split K u v w W : kw (u :: K) v w W ->
    (exists W', kw K v w W' /\ W' <= W) \/ (exists W1 W2, kw K v u W1 /\ kw K u w W2 /\ W1 + W2 <= W).
  Proof.
    intros H. induction H as [|x w W c H IH Hx Hc]; [left; exists 0; split; [constructor|lia]|].
    pose proof (wwalk_nonneg _ _ _ (kw_wwalk _ _ _ _ H)) as HW.
    destruct Hx as [->|[<-|Hx]].
    - left. exists (0 + c). split; [apply kw_snoc with v; [constructor|auto|exact Hc]|lia].
    - right. destruct IH as [(W' & A & B)|(W1 & W2 & A & B & C)].
      + exists W', (0 + c). split; [exact A|]. split; [apply kw_snoc with u; [constructor|auto|exact Hc]|lia].
      + pose proof (wwalk_nonneg _ _ _ (kw_wwalk _ _ _ _ B)). exists W1, (0 + c). split; [exact A|]. split; [apply kw_snoc with u; [constructor|auto|exact Hc]|lia].
    - destruct IH as [(W' & A & B)|(W1 & W2 & A & B & C)].
      + left. exists (W' + c). split; [apply kw_snoc with x; auto|lia].
      + right. exists W1, (W2 + c). split; [exact A|]. split; [apply kw_snoc with x; auto|lia].
  Qed.

  Record FI (K : list Z) (dist pred : dmat) : Prop := {
    f_0 : forall v, dist v v = Some 0;
    f_w : forall v w d, dist v w = Some d -> wwalk g v w d;
    f_k : forall v w W, vertex g v -> vertex g w -> kw K v w W -> exists d, dist v w = Some d /\ d <= W;
    f_p : forall v w x, pred v w = Some x -> v <> w /\ exists c dx d, weight g x w = Some c /\ dist v x = Some dx /\ dist v w = Some d /\ dx + c <= d;
    f_n : forall v w, pred v w = None -> v = w \/ dist v w = None }.

  Lemma FI_init : FI [] (fst (fw_init g)) (snd (fw_init g)).
  Proof.
    cbn. constructor.
    - intros v. rewrite Z.eqb_refl. reflexivity.
    - intros v w d. destruct (Z.eqb_spec v w) as [<-|]; [intros E; injection E as <-; constructor|].
      intros E. change d with (0 + d). apply wwalk_snoc with v; [constructor|]. unfold weight. exact E.
    - intros v w W Vv Vw H. induction H as [|x w W c H IH Hx Hc]; [rewrite Z.eqb_refl; exists 0; split; [reflexivity|lia]|].
      pose proof (wwalk_nonneg _ _ _ (kw_wwalk _ _ _ _ H)). pose proof (Hn _ _ _ Hc).
      destruct Hx as [->|[]]. destruct (Z.eqb_spec v w) as [<-|]; [exists 0; split; [reflexivity|lia]|].
      exists c. split; [exact Hc|lia].
    - intros v w x. destruct (Z.eqb_spec v w) as [|Hvw]; [discriminate|]. destruct (dget g v) as [a|] eqn:Ea; [|discriminate].
      destruct (dmem a w) eqn:Em; [|discriminate]. intros E. injection E as <-. split; [exact Hvw|]. apply dmem_true in Em. destruct Em as [c Ec].
      exists c, 0, c. rewrite Z.eqb_refl. unfold weight. rewrite Ea. split; [exact Ec|]. split; [reflexivity|]. split; [exact Ec|lia].
    - intros v w. destruct (Z.eqb_spec v w) as [|Hvw]; [auto|]. destruct (dget g v) as [a|]; [|auto]. destruct (dmem a w) eqn:Em; [discriminate|].
      intros _. right. apply Graph_Proofs.dmem_false in Em. exact Em.
  Qed.

  Lemma FI_round K u dist pred : vertex g u -> FI K dist pred ->
    exists st', fw_round (dkeys g) (dist, pred) u = Ret st' /\ FI (u :: K) (fst st') (snd st').
  Proof.
    intros Vu [F0 FW FK FP FN]. unfold fw_round. cbn [fst]. rewrite F0. change (0 <? 0) with false. cbv iota.
    destruct (round_ok u dist pred (F0 u) (list_prod (dkeys g) (dkeys g))) as (dist' & pred' & E & H). rewrite E.
    eexists. split; [reflexivity|]. cbn [fst snd].
    assert (HL : forall v w, In (v, w) (list_prod (dkeys g) (dkeys g)) <-> vertex g v /\ vertex g w) by (intros v w; apply in_prod_iff).
    assert (Hpos : forall v w d, dist v w = Some d -> 0 <= d) by (intros v w d Ed; apply (wwalk_nonneg v w), FW, Ed).
    assert (Hcase : forall v w, (vertex g v /\ vertex g w /\ (exists d1 d2, dist v u = Some d1 /\ dist u w = Some d2 /\ dist' v w = Some (d1 + d2)
                /\ match dist v w with Some d => d1 + d2 < d | None => True end) /\ pred' v w = pred u w) \/
              (dist' v w = dist v w /\ pred' v w = pred v w /\ (vertex g v -> vertex g w -> lex (dist v w) (addx (dist v u) (dist u w))))).
    { intros v w. destruct (H v w) as [H1 H2]. destruct (ltxx (addx (dist v u) (dist u w)) (dist v w)) eqn:El.
      - destruct (in_dec (fun x y : Z * Z => ltac:(decide equality; apply Z.eq_dec)) (v, w) (list_prod (dkeys g) (dkeys g))) as [Hin|Hin].
        + left. destruct H1 as [E1 E2]; [auto|]. apply HL in Hin. destruct Hin as [Vv Vw]. split; [exact Vv|]. split; [exact Vw|]. split; [|exact E2].
          apply ltxx_true in El. destruct El as (a & Ea & Ha). destruct (dist v u) as [d1|]; [|discriminate]. destruct (dist u w) as [d2|]; [|discriminate].
          cbn in Ea, E1. injection Ea as <-. exists d1, d2. auto.
        + right. destruct H2 as [E1 E2]; [tauto|]. split; [exact E1|]. split; [exact E2|]. intros Vv Vw. destruct Hin. apply HL. auto.
      - right. destruct H2 as [E1 E2]; [intros [_ K1]; discriminate|]. split; [exact E1|]. split; [exact E2|]. intros _ _. apply ltxx_false. exact El. }
    assert (Hle : forall v w d, dist v w = Some d -> exists d', dist' v w = Some d' /\ d' <= d).
    { intros v w d Ed. destruct (Hcase v w) as [(_ & _ & (d1 & d2 & _ & _ & E' & Hlt) & _)|(E' & _)].
      - rewrite Ed in Hlt. exists (d1 + d2). split; [exact E'|lia].
      - exists d. split; [congruence|lia]. }
    assert (Hsum : forall v w d1 d2, vertex g v -> vertex g w -> dist v u = Some d1 -> dist u w = Some d2 -> exists d', dist' v w = Some d' /\ d' <= d1 + d2).
    { intros v w d1 d2 Vv Vw E1 E2. destruct (Hcase v w) as [(_ & _ & (d1' & d2' & E1' & E2' & E' & Hlt) & _)|(E' & _ & Hlx)].
      - exists (d1' + d2'). split; [exact E'|]. rewrite E1 in E1'. rewrite E2 in E2'. injection E1' as <-. injection E2' as <-. lia.
      - destruct (Hlx Vv Vw (d1 + d2)) as (a & Ea & Ha); [rewrite E1, E2; reflexivity|]. exists a. split; [congruence|exact Ha]. }
    constructor.
    - intros v. destruct (Hcase v v) as [(_ & _ & (d1 & d2 & E1 & E2 & _ & Hlt) & _)|(E' & _)]; [|rewrite E'; apply F0].
      rewrite F0 in Hlt. pose proof (Hpos _ _ _ E1). pose proof (Hpos _ _ _ E2). lia.
    - intros v w d Ed. destruct (Hcase v w) as [(_ & _ & (d1 & d2 & E1 & E2 & E' & _) & _)|(E' & _)].
      + rewrite E' in Ed. injection Ed as <-. apply (wwalk_app g v u w); apply FW; assumption.
      + apply FW. congruence.
    - intros v w W Vv Vw HW. apply kw_split in HW. destruct HW as [(W' & A & B)|(W1 & W2 & A & B & C)].
      + destruct (FK v w W' Vv Vw A) as (d & Ed & Hd). destruct (Hle v w d Ed) as (d' & Ed' & Hd'). exists d'. split; [exact Ed'|lia].
      + destruct (FK v u W1 Vv Vu A) as (d1 & E1 & H1). destruct (FK u w W2 Vu Vw B) as (d2 & E2 & H2).
        destruct (Hsum v w d1 d2 Vv Vw E1 E2) as (d' & Ed' & Hd'). exists d'. split; [exact Ed'|lia].
    - intros v w x Ep. destruct (Hcase v w) as [(Vv & Vw & (d1 & d2 & E1 & E2 & E' & Hlt) & P')|(E' & P' & _)]; rewrite P' in Ep.
      + destruct (FP u w x Ep) as (Huw & c & dx & d & Hc & Ex & Ed & Hd). rewrite E2 in Ed. injection Ed as <-.
        assert (Vx : vertex g x) by (destruct Hg as (_ & _ & K1 & K2); apply (K1 w x); exists c; rewrite <- K2; exact Hc).
        destruct (Hsum v x d1 dx Vv Vx E1 Ex) as (d' & Ed' & Hd').
        split.
        * intros ->. rewrite F0 in Hlt. pose proof (Hpos _ _ _ E1). pose proof (Hpos _ _ _ E2). lia.
        * exists c, d', (d1 + d2). split; [exact Hc|]. split; [exact Ed'|]. split; [exact E'|lia].
      + destruct (FP v w x Ep) as (Hvw & c & dx & d & Hc & Ex & Ed & Hd). destruct (Hle v x dx Ex) as (d' & Ed' & Hd').
        split; [exact Hvw|]. exists c, d', d. split; [exact Hc|]. split; [exact Ed'|]. split; [congruence|lia].
    - intros v w Ep. destruct (Hcase v w) as [(Vv & Vw & (d1 & d2 & E1 & E2 & E' & Hlt) & P')|(E' & P' & _)]; rewrite P' in Ep.
      + destruct (FN u w Ep) as [->|En]; [|congruence]. rewrite F0 in E2. injection E2 as <-. rewrite E1 in Hlt. lia.
      + destruct (FN v w Ep) as [|En]; [auto|]. right. congruence.
  Qed.

  Lemma floyd_warshall_ok : exists dist pred, floyd_warshall g = Ret (dist, pred) /\
    forall v w, vertex g v -> vertex g w ->
      match dist v w with Some d => shortest g v w d | None => forall W, ~ wwalk g v w W end /\
      match pred v w with
      | Some x => v <> w /\ exists c dx, weight g x w = Some c /\ dist v x = Some dx /\ dist v w = Some (dx + c)
      | None => v = w \/ dist v w = None
      end.
  Proof.
    unfold floyd_warshall.
    assert (G : forall l K dist pred, (forall u, In u l -> vertex g u) -> FI K dist pred ->
      exists dist' pred', foldM (fw_round (dkeys g)) l (dist, pred) = Ret (dist', pred') /\ FI (rev l ++ K) dist' pred').
    { induction l as [|u l IH]; intros K dist pred Hl HF; [exists dist, pred; auto|]. cbn [foldM].
      destruct (FI_round K u dist pred (Hl u (or_introl eq_refl)) HF) as ([d1 p1] & E & HF'). rewrite E. cbn [bind].
      destruct (IH (u :: K) d1 p1) as (d2 & p2 & E2 & HF2); [intros; apply Hl; right; assumption|exact HF'|].
      exists d2, p2. split; [exact E2|]. cbn [rev]. rewrite <- app_assoc. exact HF2. }
    destruct (G (dkeys g) [] (fst (fw_init g)) (snd (fw_init g))) as (dist & pred & E & [F0 FW FK FP FN]).
    { intros u Hu. exact Hu. }
    { apply FI_init. }
    exists dist, pred. split; [exact E|]. intros v w Vv Vw.
    assert (HK : forall v w W, vertex g v -> wwalk g v w W -> kw (rev (dkeys g) ++ []) v w W).
    { intros a b W Va H. assert (Vb : vertex g b -> True) by auto. induction H as [|x b W c H IH Hc]; [constructor|].
      apply kw_snoc with x; [apply IH; auto| |exact Hc]. destruct H as [|y x W c' H Hc']; [auto|]. right. rewrite app_nil_r. apply -> in_rev.
      apply (wt_vertex g Hg y x c' Hc'). }
    split.
    - destruct (dist v w) as [d|] eqn:Ed.
      + split; [apply FW; exact Ed|]. intros W HW. destruct (FK v w W Vv Vw (HK _ _ _ Vv HW)) as (d' & Ed' & Hd'). rewrite Ed in Ed'. injection Ed' as <-. exact Hd'.
      + intros W HW. destruct (FK v w W Vv Vw (HK _ _ _ Vv HW)) as (d' & Ed' & Hd'). congruence.
    - destruct (pred v w) as [x|] eqn:Ep; [|apply FN; exact Ep]. destruct (FP v w x Ep) as (Hvw & c & dx & d & Hc & Ex & Ed & Hd).
      split; [exact Hvw|]. exists c, dx. split; [exact Hc|]. split; [exact Ex|]. rewrite Ed. f_equal.
      assert (Hw : wwalk g v w (dx + c)) by (apply wwalk_snoc with x; [apply FW; exact Ex|exact Hc]).
      destruct (FK v w _ Vv Vw (HK _ _ _ Vv Hw)) as (d' & Ed' & Hd'). rewrite Ed in Ed'. injection Ed' as <-. lia.
  Qed.
  End Nonneg.

  (** ** Negative edges *)
  Definition below (d' d : dmat) : Prop := forall v w, lex (d' v w) (d v w).

  Lemma addx_lex x x' y y' : lex x x' -> lex y y' -> lex (addx x y) (addx x' y').
  Proof.
    intros H1 H2 b E. destruct x' as [a1|]; [|discriminate]. destruct y' as [b1|]; [|discriminate]. cbn in E. injection E as <-.
    destruct (H1 a1 eq_refl) as (a & -> & Ha). destruct (H2 b1 eq_refl) as (c & -> & Hc). exists (a + c). split; [reflexivity|lia].
  Qed.

  Lemma relax_below u st vw : below (fst (fw_relax u st vw)) (fst st) /\
    lex (fst (fw_relax u st vw) (fst vw) (snd vw)) (addx (fst st (fst vw) u) (fst st u (snd vw))).
  Proof.
    destruct st as [dist pred], vw as [v w]. unfold fw_relax. cbn [fst snd]. destruct (ltxx _ _) eqn:El; cbn [fst].
    - split.
      + intros a b. rewrite upd2_eq. destruct ((a =? v) && (b =? w)) eqn:E; [|apply lex_refl].
        apply andb_true_iff in E. destruct E as [Ea Eb]. apply Z.eqb_eq in Ea, Eb. subst. apply ltxx_lex. exact El.
      + rewrite upd2_eq, !Z.eqb_refl. apply lex_refl.
    - split; [intros a b; apply lex_refl|]. apply ltxx_false. exact El.
  Qed.

  Lemma fold_below u : forall L st, below (fst (fold_left (fw_relax u) L st)) (fst st) /\
    forall v w, In (v, w) L -> lex (fst (fold_left (fw_relax u) L st) v w) (addx (fst st v u) (fst st u w)).
  Proof.
    induction L as [|vw L IH]; intros st; cbn [fold_left]; [split; [intros a b; apply lex_refl|intros v w []]|].
    destruct (relax_below u st vw) as [R1 R2]. destruct (IH (fw_relax u st vw)) as [I1 I2]. split.
    - intros a b. apply lex_trans with (fst (fw_relax u st vw) a b); auto.
    - intros v w [->|Hin].
      + apply lex_trans with (1 := I1 v w). exact R2.
      + apply lex_trans with (1 := I2 v w Hin). apply addx_lex; apply R1.
  Qed.

  Lemma round_any st u : fw_round (dkeys g) st u = Raise ValueError \/
    exists st', fw_round (dkeys g) st u = Ret st' /\ below (fst st') (fst st) /\
      (forall v w, vertex g v -> vertex g w -> lex (fst st' v w) (addx (fst st v u) (fst st u w))) /\
      forall d, fst st u u = Some d -> 0 <= d.
  Proof.
    unfold fw_round. destruct (match fst st u u with Some d => d <? 0 | None => false end) eqn:E; [left; reflexivity|]. right.
    eexists. split; [reflexivity|]. destruct (fold_below u (list_prod (dkeys g) (dkeys g)) st) as [H1 H2]. split; [exact H1|]. split.
    - intros v w Vv Vw. apply H2. apply in_prod_iff. auto.
    - intros d Ed. rewrite Ed in E. apply Z.ltb_ge in E. exact E.
  Qed.

  Lemma rounds_any : forall l st, foldM (fw_round (dkeys g)) l st = Raise ValueError \/
    exists st', foldM (fw_round (dkeys g)) l st = Ret st' /\ below (fst st') (fst st) /\
    forall u d, In u l -> fst st u u = Some d -> 0 <= d.
  Proof.
    induction l as [|u l IH]; intros st; cbn [foldM].
    - right. exists st. split; [reflexivity|]. split; [intros a b; apply lex_refl|intros u d []].
    - destruct (round_any st u) as [E|(st' & E & B & _ & N)]; rewrite E; cbn [bind]; [left; reflexivity|].
      destruct (IH st') as [E2|(st2 & E2 & B2 & N2)]; [left; exact E2|]. right. exists st2. split; [exact E2|]. split.
      + intros a b. apply lex_trans with (1 := B2 a b). apply B.
      + intros x d [<-|Hin] Ed; [apply N; exact Ed|]. destruct (B x x d Ed) as (d' & Ed' & Hd'). pose proof (N2 x d' Hin Ed'). lia.
  Qed.

  Lemma floyd_warshall_negative a b c : a <> b -> weight g a b = Some c -> c < 0 -> floyd_warshall g = Raise ValueError.
  Proof.
    intros Hab Hc Hneg. pose proof Hg as (Nd & _ & Kv & Sym).
    assert (Hba : weight g b a = Some c) by (rewrite Sym; exact Hc).
    assert (Va : vertex g a) by (apply (Kv b); exists c; exact Hba). assert (Vb : vertex g b) by (apply (Kv a); exists c; exact Hc).
    assert (G : forall a b, a <> b -> weight g a b = Some c -> weight g b a = Some c -> vertex g a -> vertex g b ->
      (exists l1 l2, dkeys g = l1 ++ a :: l2 /\ In b l2) -> floyd_warshall g = Raise ValueError).
    { clear a b Hab Hc Hba Va Vb. intros a b Hab Hc Hba Va Vb (l1 & l2 & E & Hin). unfold floyd_warshall.
      assert (Hstep : forall l, foldM (fw_round (dkeys g)) (l1 ++ a :: l2) l = bind (foldM (fw_round (dkeys g)) l1 l) (foldM (fw_round (dkeys g)) (a :: l2)))
        by (intros; apply foldM_app).
      rewrite E at 2. rewrite Hstep.
      destruct (rounds_any l1 (fw_init g)) as [E1|(st & E1 & B1 & _)]; rewrite E1; cbn [bind]; [reflexivity|]. cbn [foldM].
      destruct (round_any st a) as [E2|(st2 & E2 & _ & H2 & _)]; rewrite E2; cbn [bind]; [reflexivity|].
      destruct (rounds_any l2 st2) as [E3|(st3 & _ & _ & N3)]; [exact E3|]. exfalso.
      assert (I1 : fst (fw_init g) a b = Some c) by (cbn; destruct (Z.eqb_spec a b); [congruence|exact Hc]).
      assert (I2 : fst (fw_init g) b a = Some c) by (cbn; destruct (Z.eqb_spec b a); [congruence|exact Hba]).
      destruct (B1 a b c I1) as (c1 & Ec1 & Hc1). destruct (B1 b a c I2) as (c2 & Ec2 & Hc2).
      destruct (H2 b b Vb Vb (c2 + c1)) as (d & Ed & Hd); [rewrite Ec1, Ec2; reflexivity|].
      pose proof (N3 b d Hin Ed). lia. }
    pose proof Va as Va'. unfold vertex in Va'. apply in_split in Va'. destruct Va' as (l1 & l2 & E). pose proof Vb as Vb'. unfold vertex in Vb'.
    rewrite E in Vb'. apply in_app_iff in Vb'. destruct Vb' as [Hin|[Heq|Hin]]; [|congruence|].
    - apply in_split in Hin. destruct Hin as (m1 & m2 & ->). apply (G b a); auto. exists m1, (m2 ++ a :: l2). split.
      + unfold dkeys. rewrite E, <- app_assoc. reflexivity.
      + apply in_or_app. right. left. reflexivity.
    - apply (G a b); auto. exists l1, l2. auto.
  Qed.
End FW.
