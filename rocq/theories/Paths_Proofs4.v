(** * dijkstra_iterator and dijkstra_bidirectional *)
From Coq Require Import ZArith List Lia Bool Permutation Sorting.Sorted.
From Verif Require Import Base Py Dict Lists2 Gen Graph_Model Graph_Spec Graph_Proofs
  Trav_Model Trav_Spec Trav_Proofs Trav_Proofs2 Paths_Model Paths_Spec Paths_Proofs Paths_Proofs2.
Import ListNotations.
Open Scope Z_scope.

Lemma it_relax_eq u w path : forall row est prev h,
  it_relax w path row (est, h) =
  (do '(est, prev, h) <- relax (fun h d v => Ret ((d, v, path ++ [v]) :: h)) u w row (est, prev, h); Ret (est, h)).
Proof.
  unfold it_relax, relax. induction row as [|[v c] row IH]; intros est prev h; [reflexivity|]. cbn [foldM].
  unfold dgetM. destruct (dget est v) as [dv|]; [|reflexivity]. cbn [bind]. destruct (ltx (w + c) dv); cbn [bind]; apply IH.
Qed.

Lemma foldM_push3 path I : forall h : list (Z * Z * list Z),
  foldM (fun h x => Ret ((fst x, snd x, path ++ [snd x]) :: h)) I h =
  Ret (rev (map (fun x => (fst x, snd x, path ++ [snd x])) I) ++ h).
Proof.
  induction I as [|[d v] I IH]; intros h; [reflexivity|]. cbn [foldM bind fst snd rev map]. rewrite IH, <- app_assoc. reflexivity.
Qed.

Section Iterator.
  Context (g : graph) (s : Z).
  Hypothesis Hg : undirected g.
  Hypothesis Hs : vertex g s.
  Hypothesis Hn : nonneg g.

  Definition it_inv (est : dists) (h : list (Z * Z * list Z)) (S : list (Z * Z)) : Prop :=
    exists prev, keysok g est /\ J g s (getD est) (getD prev) S /\
      covers est S (fun d y => exists p, In (d, y, p) h) /\
      forall d y p, In (d, y, p) h -> vpath g s p y d.

  Lemma it_inv_start : it_inv (dset (all_keys g None) s (Some 0)) [(0, s, [s])] [].
  Proof.
    exists (all_keys g None). split; [apply keysok_init|]. split; [apply J_start; [exact Hs|apply getD_all]|]. split.
    - apply covers_start. intros d y. split.
      + intros (p & [E|[]]). injection E as <- <- _. auto.
      + intros [-> ->]. exists [s]. left. reflexivity.
    - intros d y p [E|[]]. injection E as <- <- <-. constructor.
  Qed.

  Lemma it_pop_ok : forall fuel est h S, it_inv est h S -> (length h <= fuel)%nat ->
    (it_pop g fuel est h (map fst S) = Ret (None, (est, [], map fst S)) /\ forall v W, wwalk g s v W -> In v (map fst S)) \/
    exists u w p est' h', it_pop g fuel est h (map fst S) = Ret (Some (u, w, p), (est', h', map fst (S ++ [(u, w)]))) /\
      ~ In u (map fst S) /\ vpath g s p u w /\ In (w, u, p) h /\ it_inv est' h' (S ++ [(u, w)]).
  Proof.
    assert (End : forall est S, it_inv est [] S -> forall v W, wwalk g s v W -> In v (map fst S)).
    { intros est S (prev & HK & HJ & HC & _) v W HW.
      destruct (J_frontier g s Hn _ _ _ v W HJ HW) as [(d & Hd & _)|(y & dy & A & B & _)].
      - apply in_map_iff. exists (v, d). auto.
      - exfalso. apply B. apply (settled_end est S _ HC) with dy; [|exact A]. intros d z (p & []). }
    induction fuel as [|fuel IH]; intros est h S Hi Hf; (destruct h as [|x h]; [left; split; [reflexivity|apply (End est S Hi)]|]).
    - cbn [length] in Hf. lia.
    - cbn [it_pop]. destruct (pop_min triple_ltb x h) as [[[w u] path] r] eqn:Ep.
      destruct (pop_min_ok triple_ltb (fun x => fst (fst x)) triple_ltb_1 triple_ltb_2 h x _ _ Ep) as [Pm Hmin]. cbn [fst] in Hmin.
      assert (Hlen : length r = length h) by (apply Permutation_length in Pm; cbn in Pm; lia). cbn [length] in Hf.
      destruct Hi as (prev & HK & HJ & HC & HP).
      assert (Hin : In (w, u, path) (x :: h)) by (apply (Permutation_in _ (Permutation_sym Pm)); left; reflexivity).
      assert (HC' : covers est S (fun d y => exists p, In (d, y, p) ((w, u, path) :: r))).
      { apply covers_ext with (2 := HC). intros d y. split; intros (p & Hp); exists p.
        - apply (Permutation_in _ Pm). exact Hp.
        - apply (Permutation_in _ (Permutation_sym Pm)). exact Hp. }
      assert (HP' : forall d y p, In (d, y, p) r -> vpath g s p y d).
      { intros d y p Hp. apply HP. apply (Permutation_in _ (Permutation_sym Pm)). right. exact Hp. }
      assert (Hsub : forall e, In e r -> In e (x :: h)) by (intros e He; apply (Permutation_in _ (Permutation_sym Pm)); right; exact He).
      destruct (mem u (map fst S)) eqn:Eu.
      + apply mem_In in Eu. destruct (IH est r S) as [[E1 E2]|(u' & w' & p' & est' & h' & E1 & E2 & E3 & E4 & E5)].
        * exists prev. split; [exact HK|]. split; [exact HJ|]. split; [|exact HP']. destruct HC' as [C1 C2]. split.
          -- intros y d Ey Hy. destruct (C1 y d Ey Hy) as (p & [E|Hp]); [|eauto]. injection E as <- <- <-. tauto.
          -- intros d y (p & Hp). apply (C2 d y). exists p. right. exact Hp.
        * lia.
        * left. auto.
        * right. exists u', w', p', est', h'. auto 7.
      + apply mem_false in Eu. right.
        destruct (covers_pop est S _ w u HC' (ex_intro _ path (or_introl eq_refl))) as [Edu Hmin']; [|exact Eu|].
        { intros d y (p & Hp). apply (Permutation_in _ (Permutation_sym Pm)) in Hp. apply (Hmin (d, y, p) Hp). }
        destruct (settle g s Hg Hn (fun h d v => Ret ((d, v, path ++ [v]) :: h)) est prev S u w HK HJ Eu Edu Hmin')
          as (row & I & dist' & prev' & Eg & Er & Nr & Erx & EI & _ & HK' & HJ' & NI & LI & HI & HnI).
        rewrite Eg. cbn [bind]. rewrite (it_relax_eq u w path row est prev r), Erx, foldM_push3. cbn [bind].
        replace (map fst S ++ [u]) with (map fst (S ++ [(u, w)])) by (rewrite map_app; reflexivity).
        assert (Hq : forall d y p, In (d, y, p) (rev (map (fun x0 => (fst x0, snd x0, path ++ [snd x0])) I) ++ r) <->
                  In (d, y, p) r \/ (In (d, y) I /\ p = path ++ [y])).
        { intros d y p. rewrite in_app_iff, <- in_rev, in_map_iff. split.
          - intros [([d' y'] & E & H)|H]; [|auto]. cbn [fst snd] in E. injection E as <- <- <-. auto.
          - intros [H|[H ->]]; [auto|]. left. exists (d, y). auto. }
        eexists u, w, path, _, _. split; [reflexivity|]. split; [exact Eu|]. split; [apply HP; exact Hin|]. split; [exact Hin|].
        exists prev'. split; [exact HK'|]. split; [exact HJ'|]. split.
        * apply covers_step with est (fun d y => exists p, In (d, y, p) ((w, u, path) :: r)) I; auto.
          -- intros d v Hv. destruct (HI d v Hv) as (_ & A & B & _). auto.
          -- intros d y (p & [E|Hp]) Hy; [injection E as <- <- <-; tauto|]. exists p. apply Hq. auto.
          -- intros d y Hy. exists (path ++ [y]). apply Hq. auto.
          -- intros d y (p & Hp). apply Hq in Hp. destruct Hp as [Hp|[Hp _]]; [|auto]. left. exists p. right. exact Hp.
        * intros d y p Hp. apply Hq in Hp. destruct Hp as [Hp|[Hp ->]]; [apply HP'; exact Hp|].
          rewrite EI in Hp. apply (improved_In g _ w u row d y Er Nr) in Hp. destruct Hp as (c & Ec & -> & _).
          apply vpath_snoc with u; [|exact Ec]. apply HP. exact Hin.
  Qed.

  Lemma it_inv_len est h S : it_inv est h S -> (length S <= length g)%nat.
  Proof.
    intros (prev & _ & HJ & _). rewrite <- (map_length fst S), <- (map_length fst g). apply NoDup_incl_length; [apply (j_nd _ _ _ _ _ HJ)|].
    intros v Hv. apply in_map_iff in Hv. destruct Hv as ([x d] & Ex & Hx). cbn in Ex. subst x.
    destruct (j_S _ _ _ _ _ HJ v d Hx) as [E _]. apply (j_w _ _ _ _ _ HJ v d E).
  Qed.

  Lemma it_loop_ok : forall n est h S, it_inv est h S -> (length g < n + length S)%nat ->
    exists L, (forall fuel, (n <= fuel)%nat -> it_loop g fuel (est, h, map fst S) = (L, GEnded)) /\
      exists est' h', let S' := S ++ map (fun x => (fst (fst x), snd (fst x))) L in it_inv est' h' S' /\
      (forall v W, wwalk g s v W -> In v (map fst S')) /\ (forall u w p, In (u, w, p) L -> vpath g s p u w).
  Proof.
    induction n as [|n IH]; intros est h S Hi Hlen.
    - pose proof (it_inv_len est h S Hi). lia.
    - destruct (it_pop_ok (length h) est h S Hi (le_n _)) as [[E1 E2]|(u & w & p & est' & h' & E1 & E2 & E3 & _ & E5)].
      + exists []. split.
        * intros [|f] Hf; [lia|]. cbn [it_loop it_next]. rewrite E1. reflexivity.
        * exists est, h. cbn [map]. rewrite app_nil_r. split; [exact Hi|]. split; [exact E2|]. intros u w p [].
      + destruct (IH est' h' (S ++ [(u, w)]) E5) as (L & HL & est2 & h2 & H2 & H3 & H4).
        * rewrite app_length. cbn [length]. lia.
        * exists ((u, w, p) :: L). split.
          -- intros [|f] Hf; [lia|]. cbn [it_loop it_next]. rewrite E1, HL by lia. reflexivity.
          -- exists est2, h2. cbn [map fst snd]. rewrite <- app_assoc in H2, H3. cbn [app] in H2, H3. split; [exact H2|]. split; [exact H3|].
             intros u' w' p' [E|Hin]; [injection E as <- <- <-; exact E3|auto].
  Qed.

  Lemma iterator_ok : exists L, yields (dijkstra_iterator g s) L /\
    StronglySorted (fun x y : Z * Z * list Z => snd (fst x) <= snd (fst y)) L /\ NoDup (map (fun x => fst (fst x)) L) /\
    (forall u w p, In (u, w, p) L -> shortest g s u w /\ vpath g s p u w) /\
    (forall v W, wwalk g s v W -> In v (map (fun x => fst (fst x)) L)).
  Proof.
    destruct (it_loop_ok (S (length g)) _ _ [] it_inv_start) as (L & HL & est & h & (prev & _ & HJ & _) & H3 & H4); [cbn; lia|].
    cbn [app] in HJ, H3. exists L. split; [|split; [|split; [|split]]].
    - exists (S (length g)). intros fuel Hf. unfold dijkstra_iterator. rewrite (dmem_vertex g s Hs). apply HL. exact Hf.
    - pose proof (j_so _ _ _ _ _ HJ) as So. clear - So. induction L as [|x L IH]; [constructor|]. cbn [map] in So.
      inversion_clear So as [|? ? So1 So2]. constructor; [auto|]. rewrite Forall_forall in *. intros y Hy.
      apply (So2 (fst (fst y), snd (fst y))). apply in_map_iff. exists y. auto.
    - pose proof (j_nd _ _ _ _ _ HJ) as N. rewrite map_map in N. exact N.
    - intros u w p Hin. split; [|apply H4; exact Hin].
      assert (Hu : In (u, w) (map (fun x => (fst (fst x), snd (fst x))) L)) by (apply in_map_iff; exists (u, w, p); auto).
      destruct (j_S _ _ _ _ _ HJ u w Hu) as [Du Hsh]. split; [apply (j_w _ _ _ _ _ HJ u w Du)|exact Hsh].
    - intros v W HW. specialize (H3 v W HW). rewrite map_map in H3. exact H3.
  Qed.
End Iterator.

(** ** Walks in undirected graphs *)

Section Walks.
  Context (g : graph).
  Hypothesis Hg : undirected g.

  Lemma wt_sym u v : weight g u v = weight g v u.
  Proof. apply Hg. Qed.

  Lemma wwalk_cons u v c w W : weight g u v = Some c -> wwalk g v w W -> wwalk g u w (c + W).
  Proof.
    intros Hc H. induction H as [|a b W c' _ IH Hc'].
    - replace (c + 0) with (0 + c) by lia. apply wwalk_snoc with u; [constructor|exact Hc].
    - replace (c + (W + c')) with (c + W + c') by lia. apply wwalk_snoc with a; assumption.
  Qed.

  Lemma wwalk_app u v w W W' : wwalk g u v W -> wwalk g v w W' -> wwalk g u w (W + W').
  Proof.
    intros H H'. induction H' as [|a b W' c _ IH Hc]; [rewrite Z.add_0_r; exact H|].
    rewrite Z.add_assoc. apply wwalk_snoc with a; assumption.
  Qed.

  Lemma wwalk_rev u v W : wwalk g u v W -> wwalk g v u W.
  Proof.
    intros H. induction H as [|a b W c _ IH Hc]; [constructor|]. rewrite wt_sym in Hc. rewrite Z.add_comm.
    apply wwalk_cons with a; assumption.
  Qed.

  Lemma vpath_wwalk u l v W : vpath g u l v W -> wwalk g u v W.
  Proof. intros H. induction H; [constructor|econstructor; eassumption]. Qed.

  Lemma vpath_cat u l v W l' w W' c y : vpath g u l v W -> weight g v y = Some c -> vpath g w l' y W' ->
    vpath g u (l ++ rev l') w (W + c + W').
  Proof.
    intros H Hc H'. revert l v W c H Hc. induction H' as [|l' v' y' W' c' H' IH Hc']; intros l v W c H Hc.
    - cbn [rev app]. rewrite Z.add_0_r. apply vpath_snoc with v; assumption.
    - rewrite rev_app_distr. cbn [rev app]. replace (W + c + (W' + c')) with (W + c + c' + W') by lia.
      replace (l ++ y' :: rev l') with ((l ++ [y']) ++ rev l') by (rewrite <- app_assoc; reflexivity).
      apply IH with y'; [apply vpath_snoc with v; assumption|]. rewrite wt_sym. exact Hc'.
  Qed.

  Lemma vpath_head u l v W : vpath g u l v W -> exists l', l = u :: l'.
  Proof. intros H. induction H as [|l v w W c _ [l' ->] _]; [exists []; reflexivity|]. exists (l' ++ [w]). reflexivity. Qed.

  (** the first edge leaving a set *)
  Lemma first_exit (P : Z -> Prop) (Pdec : forall v, {P v} + {~ P v}) u v W : wwalk g u v W -> P u -> ~ P v ->
    exists p q W1 c W2, wwalk g u p W1 /\ weight g p q = Some c /\ wwalk g q v W2 /\ W = W1 + c + W2 /\ P p /\ ~ P q.
  Proof.
    intros H Hu. induction H as [|a b W c H IH Hc]; intros Hv; [tauto|].
    destruct (Pdec a) as [Ha|Ha].
    - exists a, b, W, c, 0. split; [exact H|]. split; [exact Hc|]. split; [constructor|]. split; [lia|]. auto.
    - destruct (IH Ha) as (p & q & W1 & c' & W2 & H1 & H2 & H3 & -> & H5). exists p, q, W1, c', (W2 + c).
      split; [exact H1|]. split; [exact H2|]. split; [apply wwalk_snoc with a; assumption|]. split; [lia|exact H5].
  Qed.
End Walks.

Section Bidirectional.
  Context (g : graph).
  Hypothesis Hg : undirected g.
  Hypothesis Hn : nonneg g.

  Notation pmap := (list (Z * (Z * list Z))).

  Definition found_by (r : Z) (fe : pmap) (S : list (Z * Z)) : Prop :=
    NoDup (dkeys fe) /\ (forall v d p, dget fe v = Some (d, p) -> In (v, d) S /\ vpath g r p v d) /\
    (forall v d, In (v, d) S -> exists p, dget fe v = Some (d, p)).

  Definition side_inv (r : Z) (side : pmap * itstate) (S : list (Z * Z)) : Prop :=
    exists est h, snd side = (est, h, map fst S) /\ it_inv g r est h S /\ found_by r (fst side) S.

  Lemma found_mem r fe S v : found_by r fe S -> (dmem fe v = true <-> In v (map fst S)).
  Proof.
    intros (_ & F1 & F2). rewrite dmem_true, in_map_iff. split.
    - intros [[d p] E]. destruct (F1 v d p E) as [H _]. exists (v, d). auto.
    - intros ([v' d] & E & H). cbn in E. subst v'. destruct (F2 v d H) as [p E]. eauto.
  Qed.

  Lemma found_snoc r fe S v w p : found_by r fe S -> ~ In v (map fst S) -> vpath g r p v w -> found_by r (dset fe v (w, p)) (S ++ [(v, w)]).
  Proof.
    intros (F0 & F1 & F2) Hv Hp. split; [apply dset_NoDup; exact F0|]. split.
    - intros v' d p' E. rewrite dget_dset in E. rewrite in_app_iff. destruct (Z.eqb_spec v v') as [->|Hne].
      + injection E as <- <-. split; [right; left; reflexivity|exact Hp].
      + destruct (F1 v' d p' E). auto.
    - intros v' d H. rewrite dget_dset. destruct (Z.eqb_spec v v') as [->|Hne].
      + apply in_app_iff in H. destruct H as [H|[E|[]]].
        * destruct Hv. apply in_map_iff. exists (v', d). auto.
        * injection E as <-. eauto.
      + apply in_app_iff in H. destruct H as [H|[E|[]]]; [auto|]. injection E as -> _. congruence.
  Qed.

  Lemma bi_step_ok r side other S : vertex g r -> side_inv r side S ->
    (bi_step g side other = Ret None /\ forall v W, wwalk g r v W -> In v (map fst S)) \/
    exists v w side', bi_step g side other = Ret (Some (dmem (fst other) v, side')) /\ ~ In v (map fst S) /\
      side_inv r side' (S ++ [(v, w)]).
  Proof.
    intros Hr (est & h & Es & Hi & Hf). destruct side as [fe st]. cbn [fst snd] in *. subst st. unfold bi_step. cbn [it_next].
    destruct (it_pop_ok g r Hg Hn (length h) est h S Hi (le_n _)) as [[E1 E2]|(u & w & p & est' & h' & E1 & E2 & E3 & _ & E5)]; rewrite E1; cbn [bind].
    - left. auto.
    - right. eexists u, w, _. split; [reflexivity|]. split; [exact E2|]. exists est', h'. cbn [fst snd]. split; [reflexivity|].
      split; [exact E5|]. apply found_snoc; assumption.
  Qed.

  Lemma bi_step_start r other : vertex g r -> exists side', bi_step g ([], it_start g r) other = Ret (Some (dmem (fst other) r, side')) /\
    side_inv r side' [(r, 0)].
  Proof.
    intros Hr. unfold bi_step, it_start. cbn [it_next].
    destruct (it_pop_ok g r Hg Hn 1 _ _ [] (it_inv_start g r Hr) (le_n _)) as [[E1 E2]|(u & w & p & est' & h' & E1 & E2 & E3 & E4 & E5)].
    - destruct (E2 r 0). constructor.
    - destruct E4 as [E4|[]]. injection E4 as <- <- <-. cbn [length map] in *. rewrite E1. cbn [bind]. eexists. split; [reflexivity|].
      exists est', h'. cbn [fst snd]. split; [reflexivity|]. split; [exact E5|].
      apply (found_snoc r [] []); [|intros []|constructor]. split; [constructor|]. split; [discriminate|intros v d []].
  Qed.

  (** what both searches know when they meet in x *)
  Definition met (s t : Z) (fe be : pmap) : Prop :=
    exists SF SB DF PF DB PB x, found_by s fe SF /\ found_by t be SB /\ J g s DF PF SF /\ J g t DB PB SB /\
      In s (map fst SF) /\ In t (map fst SB) /\ In x (map fst SF) /\ In x (map fst SB).

  Lemma bi_loop_ok s t : vertex g s -> vertex g t -> forall fuel fw bw SF SB, side_inv s fw SF -> side_inv t bw SB ->
    In s (map fst SF) -> In t (map fst SB) -> (forall v, In v (map fst SF) -> ~ In v (map fst SB)) ->
    (length g < fuel + length SF)%nat ->
    (bi_loop g fuel fw bw = Ret None /\ forall W, ~ wwalk g s t W) \/
    exists fe be, bi_loop g fuel fw bw = Ret (Some (fe, be)) /\ met s t fe be.
  Proof.
    intros Vs Vt. induction fuel as [|fuel IH]; intros fw bw SF SB Hf Hb Hs Ht Hd Hlen.
    - destruct Hf as (est & h & _ & Hi & _). pose proof (it_inv_len g s est h SF Hi). lia.
    - cbn [bi_loop]. destruct (bi_step_ok s fw bw SF Vs Hf) as [[E1 E2]|(v & w & fw' & E1 & Hv & Hf')]; rewrite E1; cbn [bind].
      + left. split; [reflexivity|]. intros W HW. apply (Hd t); [apply (E2 t W HW)|exact Ht].
      + assert (Hs' : In s (map fst (SF ++ [(v, w)]))) by (rewrite map_app, in_app_iff; auto).
        assert (Hlast : forall S : list (Z * Z), In v (map fst (S ++ [(v, w)]))) by (intros S; rewrite map_app, in_app_iff; right; left; reflexivity).
        destruct (dmem (fst bw) v) eqn:Em.
        * right. eexists _, _. split; [reflexivity|]. destruct Hf' as (est & h & _ & (prev & _ & HJ & _) & Hff).
          destruct Hb as (est' & h' & _ & (prev' & _ & HJ' & _) & Hfb).
          exists (SF ++ [(v, w)]), SB, (getD est), (getD prev), (getD est'), (getD prev'), v.
          split; [exact Hff|]. split; [exact Hfb|]. split; [exact HJ|]. split; [exact HJ'|]. split; [exact Hs'|]. split; [exact Ht|].
          split; [apply Hlast|]. apply (found_mem t (fst bw) SB v Hfb). exact Em.
        * assert (HvB : ~ In v (map fst SB)).
          { destruct Hb as (est' & h' & _ & _ & Hfb). intros H. apply (found_mem t (fst bw) SB v Hfb) in H. congruence. }
          assert (Hd' : forall y, In y (map fst (SF ++ [(v, w)])) -> ~ In y (map fst SB)).
          { intros y Hy. rewrite map_app, in_app_iff in Hy. destruct Hy as [Hy|[<-|[]]]; auto. }
          destruct (bi_step_ok t bw fw' SB Vt Hb) as [[E3 E4]|(v' & w' & bw' & E3 & Hv' & Hb')]; rewrite E3; cbn [bind].
          -- left. split; [reflexivity|]. intros W HW. apply (Hd s Hs). apply (E4 s W). apply wwalk_rev; [exact Hg|exact HW].
          -- assert (Ht' : In t (map fst (SB ++ [(v', w')]))) by (rewrite map_app, in_app_iff; auto).
             destruct (dmem (fst fw') v') eqn:Em'.
             ++ right. eexists _, _. split; [reflexivity|]. destruct Hf' as (est & h & _ & (prev & _ & HJ & _) & Hff).
                destruct Hb' as (est' & h' & _ & (prev' & _ & HJ' & _) & Hfb).
                exists (SF ++ [(v, w)]), (SB ++ [(v', w')]), (getD est), (getD prev), (getD est'), (getD prev'), v'.
                split; [exact Hff|]. split; [exact Hfb|]. split; [exact HJ|]. split; [exact HJ'|]. split; [exact Hs'|]. split; [exact Ht'|].
                split; [|rewrite map_app, in_app_iff; right; left; reflexivity]. apply (found_mem s (fst fw') _ v' Hff). exact Em'.
             ++ apply (IH fw' bw' (SF ++ [(v, w)]) (SB ++ [(v', w')])); auto.
                ** intros y Hy Hy'. rewrite map_app, in_app_iff in Hy'. destruct Hy' as [Hy'|[<-|[]]]; [exact (Hd' y Hy Hy')|].
                   destruct Hf' as (est & h & _ & _ & Hff). apply (found_mem s (fst fw') _ v' Hff) in Hy. cbn in Hy. congruence.
                ** rewrite app_length. cbn [length]. lia.
  Qed.

  (** an edge between the two settled sets lies on a shortest walk *)
  Lemma met_edge s t fe be W : s <> t -> met s t fe be -> wwalk g s t W ->
    exists u v du pu dv pv c, dget fe u = Some (du, pu) /\ dget be v = Some (dv, pv) /\ weight g u v = Some c /\ du + c + dv <= W.
  Proof.
    intros Hst (SF & SB & DF & PF & DB & PB & x & Ff & Fb & JF & JB & Hs & Ht & Hx1 & Hx2) HW.
    assert (inS : forall (S : list (Z * Z)) y, In y (map fst S) -> exists d, In (y, d) S).
    { intros S y Hy. apply in_map_iff in Hy. destruct Hy as ([y' d] & E & H). cbn in E. subst. eauto. }
    assert (Use : forall u du v dv c, In (u, du) SF -> In (v, dv) SB -> weight g u v = Some c -> du + c + dv <= W ->
      exists u v du pu dv pv c, dget fe u = Some (du, pu) /\ dget be v = Some (dv, pv) /\ weight g u v = Some c /\ du + c + dv <= W).
    { intros u du v dv c Hu Hv Hc Hle. destruct Ff as (_ & _ & F2). destruct Fb as (_ & _ & B2).
      destruct (F2 u du Hu) as [pu Eu]. destruct (B2 v dv Hv) as [pv Ev]. exists u, v, du, pu, dv, pv, c. auto. }
    assert (B0 : In (t, 0) SB).
    { destruct (inS _ _ Ht) as [d Hd]. destruct (j_S _ _ _ _ _ JB t d Hd) as [E _]. rewrite (proj1 (j_s _ _ _ _ _ JB)) in E. injection E as <-. exact Hd. }
    destruct (in_dec Z.eq_dec t (map fst SF)) as [HtF|HtF].
    - destruct (inS _ _ HtF) as [d Hd]. destruct (j_S _ _ _ _ _ JF t d Hd) as [E K].
      destruct (PF t) as [p|] eqn:Ep; [|pose proof (j_pn _ _ _ _ _ JF t d E Ep); congruence].
      destruct (j_p _ _ _ _ _ JF t p Ep) as (dp & c & Hp & Hc & E'). rewrite E in E'. injection E' as ->.
      apply (Use p dp t 0 c Hp B0 Hc). pose proof (K W HW). lia.
    - destruct (first_exit g (fun v => In v (map fst SF)) (fun v => in_dec Z.eq_dec v _) s t W HW Hs HtF)
        as (p & q & W1 & c & W2 & H1 & Hc & H2 & -> & Hp & Hq).
      destruct (inS _ _ Hp) as [dp Hdp]. destruct (j_S _ _ _ _ _ JF p dp Hdp) as [Edp Kp]. pose proof (Kp W1 H1).
      apply (wwalk_rev g Hg) in H2.
      destruct (inS _ _ Hx1) as [dx Hdx]. destruct (inS _ _ Hx2) as [ex Hex].
      destruct (j_S _ _ _ _ _ JB x ex Hex) as [Eex _].
      destruct (in_dec Z.eq_dec q (map fst SB)) as [HqB|HqB].
      + destruct (inS _ _ HqB) as [dq Hdq]. destruct (j_S _ _ _ _ _ JB q dq Hdq) as [_ Kq]. pose proof (Kq W2 H2).
        apply (Use p dp q dq c Hdp Hdq Hc). lia.
      + destruct (j_e _ _ _ _ _ JF p dp q c Hdp Hc) as (dq & Edq & Hdq). pose proof (j_le _ _ _ _ _ JF x dx q dq Hdx Edq Hq).
        destruct (J_frontier g t Hn _ _ _ q W2 JB H2) as [(d & Hd & _)|(y & dy & A & B & C)].
        { destruct HqB. apply in_map_iff. exists (q, d). auto. }
        pose proof (j_le _ _ _ _ _ JB x ex y dy Hex A B).
        destruct (PB x) as [b|] eqn:Eb.
        * destruct (j_p _ _ _ _ _ JB x b Eb) as (db & c' & Hb & Hc' & E'). rewrite Eex in E'. injection E' as ->.
          rewrite (wt_sym g Hg) in Hc'. apply (Use x dx b db c' Hdx Hb Hc'). lia.
        * pose proof (j_pn _ _ _ _ _ JB x ex Eex Eb). subst x. tauto.
  Qed.

  (** paths.py:612-620 *)
  Definition cand (t : Z) (fe be : pmap) (d : Z) (p : list Z) : Prop :=
    exists u v du pu dv pv c, dget fe u = Some (du, pu) /\ dget be v = Some (dv, pv) /\ weight g u v = Some c /\
      d = du + c + dv /\ p = pu ++ rev (tl pv) ++ [t].

  Lemma bi_best_ok t fe be : NoDup (dkeys fe) -> (forall u x, dget fe u = Some x -> vertex g u) ->
    exists b, bi_best g t fe be = Ret b /\ (forall d, fst b = Some d -> cand t fe be d (snd b)) /\ (fst b = None -> snd b = []) /\
      forall d p, cand t fe be d p -> exists d', fst b = Some d' /\ d' <= d.
  Proof.
    intros Nf Vf. unfold bi_best.
    set (I := fun (done : list (Z * (Z * list Z))) (b : ext * list Z) =>
      (forall d, fst b = Some d -> cand t fe be d (snd b)) /\ (fst b = None -> snd b = []) /\
      (forall u du pu v dv pv c, In (u, (du, pu)) done -> dget be v = Some (dv, pv) -> weight g u v = Some c ->
         exists d', fst b = Some d' /\ d' <= du + c + dv)).
    match goal with |- context [foldM ?f fe (None, [])] => set (F := f) end.
    assert (G : forall rest done b, fe = done ++ rest -> I done b -> exists b', foldM F rest b = Ret b' /\ I fe b').
    { induction rest as [|[u [du pu]] rest IH]; intros done b E Hb.
      - rewrite app_nil_r in E. subst done. exists b. split; [reflexivity|exact Hb].
      - cbn [foldM]. assert (Eu : dget fe u = Some (du, pu)).
        { apply dget_In; [exact Nf|]. rewrite E. apply in_or_app. right. left. reflexivity. }
        destruct (adj_row g Hg u (Vf u _ Eu)) as (row & Er & Nr & _).
        unfold F at 1. unfold g_adj, dgetM. rewrite Er. cbn [bind].
        match goal with |- context [foldM ?f row b] => set (F2 := f) end.
        set (I2 := fun (d2 : list (Z * Z)) (b : ext * list Z) =>
          (forall d, fst b = Some d -> cand t fe be d (snd b)) /\ (fst b = None -> snd b = []) /\
          (forall u du pu v dv pv c, In (u, (du, pu)) done -> dget be v = Some (dv, pv) -> weight g u v = Some c ->
             exists d', fst b = Some d' /\ d' <= du + c + dv) /\
          (forall v dv pv c, In (v, c) d2 -> dget be v = Some (dv, pv) -> exists d', fst b = Some d' /\ d' <= du + c + dv)).
        assert (G2 : forall rest2 d2 b, row = d2 ++ rest2 -> I2 d2 b -> exists b', foldM F2 rest2 b = Ret b' /\ I2 row b').
        { induction rest2 as [|[v c] rest2 IH2]; intros d2 [bl bp] E2 Hb2.
          - rewrite app_nil_r in E2. subst d2. exists (bl, bp). split; [reflexivity|exact Hb2].
          - cbn [foldM]. unfold F2 at 1.
            assert (Ec : weight g u v = Some c).
            { unfold weight. rewrite Er. apply dget_In; [exact Nr|]. rewrite E2. apply in_or_app. right. left. reflexivity. }
            destruct Hb2 as (B1 & B2 & B3 & B4). cbn [fst snd] in *.
            destruct (dget be v) as [[dv pv]|] eqn:Ev.
            + destruct (ltx (du + c + dv) bl) eqn:El; cbn [bind]; apply (IH2 (d2 ++ [(v, c)])).
              * rewrite <- app_assoc. exact E2.
              * assert (Mono : forall d, (exists d', bl = Some d' /\ d' <= d) -> exists d', Some (du + c + dv) = Some d' /\ d' <= d).
                { intros d (d' & -> & Hd'). apply ltx_true in El. eexists. split; [reflexivity|]. lia. }
                split; [|split; [|split]]; cbn [fst snd].
                -- intros d Ed. injection Ed as <-. exists u, v, du, pu, dv, pv, c. auto 6.
                -- discriminate.
                -- intros. apply Mono. eapply B3; eassumption.
                -- intros v' dv' pv' c' Hin Ev'. apply in_app_iff in Hin. destruct Hin as [Hin|[E'|[]]].
                   ++ apply Mono. eapply B4; eassumption.
                   ++ injection E' as <- <-. rewrite Ev in Ev'. injection Ev' as <- <-. eexists. split; [reflexivity|lia].
              * rewrite <- app_assoc. exact E2.
              * split; [exact B1|]. split; [exact B2|]. split; [exact B3|]. cbn [fst snd].
                intros v' dv' pv' c' Hin Ev'. apply in_app_iff in Hin. destruct Hin as [Hin|[E'|[]]]; [eapply B4; eassumption|].
                injection E' as <- <-. rewrite Ev in Ev'. injection Ev' as <- <-. apply ltx_false in El. exact El.
            + cbn [bind]. apply (IH2 (d2 ++ [(v, c)])); [rewrite <- app_assoc; exact E2|].
              split; [exact B1|]. split; [exact B2|]. split; [exact B3|]. cbn [fst snd].
              intros v' dv' pv' c' Hin Ev'. apply in_app_iff in Hin. destruct Hin as [Hin|[E'|[]]]; [eapply B4; eassumption|].
              injection E' as <- <-. congruence. }
        destruct (G2 row [] b eq_refl) as (b' & E' & B1 & B2 & B3 & B4).
        { destruct Hb as (B1 & B2 & B3). split; [exact B1|]. split; [exact B2|]. split; [exact B3|]. intros v dv pv c []. }
        rewrite E'. cbn [bind]. apply (IH (done ++ [(u, (du, pu))])); [rewrite <- app_assoc; exact E|].
        split; [exact B1|]. split; [exact B2|]. intros u' du' pu' v dv pv c Hin Ev Ec. apply in_app_iff in Hin.
        destruct Hin as [Hin|[Eq|[]]]; [eapply B3; eassumption|]. injection Eq as <- <- <-. apply (B4 v dv pv c); [|exact Ev].
        unfold weight in Ec. rewrite Er in Ec. apply dget_Some_In. exact Ec. }
    destruct (G fe [] (None, []) eq_refl) as (b & E & B1 & B2 & B3).
    { split; [discriminate|]. split; [reflexivity|]. intros u du pu v dv pv c []. }
    exists b. split; [exact E|]. split; [exact B1|]. split; [exact B2|].
    intros d p (u & v & du & pu & dv & pv & c & Eu & Ev & Ec & -> & _). apply (B3 u du pu v dv pv c); [|exact Ev|exact Ec].
    apply dget_Some_In. exact Eu.
  Qed.

  Lemma bidirectional_ok s t : vertex g s -> vertex g t -> s <> t ->
    exists r, dijkstra_bidirectional g s t = Ret r /\
      match r with
      | BiPair (Some d) p => shortest g s t d /\ vpath g s p t d
      | BiPair None _ => False
      | BiInf => forall W, ~ wwalk g s t W
      end.
  Proof.
    intros Vs Vt Hst. unfold dijkstra_bidirectional. rewrite (dmem_vertex g s Vs), (dmem_vertex g t Vt). cbn [negb bi_loop].
    destruct (bi_step_start s ([], it_start g t) Vs) as (fw & E1 & Hf). rewrite E1. cbn [bind fst dmem dget].
    destruct (bi_step_start t fw Vt) as (bw & E2 & Hb). change (dmem [] s) with false. cbn match.
    rewrite E2. cbn [bind].
    destruct (dmem (fst fw) t) eqn:Em.
    { exfalso. destruct Hf as (est & h & _ & _ & Hff). apply (found_mem s (fst fw) _ t Hff) in Em. destruct Em as [E|[]]. cbn in E. congruence. }
    destruct (bi_loop_ok s t Vs Vt (length g) fw bw [(s, 0)] [(t, 0)] Hf Hb) as [[E3 E4]|(fe & be & E3 & HM)].
    - left. reflexivity.
    - left. reflexivity.
    - cbn. intros v [<-|[]] [E|[]]. congruence.
    - cbn [length]. lia.
    - rewrite E3. cbn [bind]. exists BiInf. auto.
    - rewrite E3. cbn [bind]. pose proof HM as (SF & SB & DF & PF & DB & PB & x & Ff & Fb & JF & JB & Hs & Ht & Hx1 & Hx2).
      destruct (bi_best_ok t fe be) as ([bl bp] & Eb & B1 & B2 & B3).
      { apply Ff. }
      { intros u [du pu] Eu. destruct Ff as (_ & F1 & _). destruct (F1 u du pu Eu) as [Hu _].
        destruct (j_S _ _ _ _ _ JF u du Hu) as [E _]. apply (j_w _ _ _ _ _ JF u du E). }
      rewrite Eb. cbn [bind]. eexists. split; [reflexivity|]. cbn [fst snd] in *.
      assert (inS : forall (S : list (Z * Z)) y, In y (map fst S) -> exists d, In (y, d) S).
      { intros S y Hy. apply in_map_iff in Hy. destruct Hy as ([y' d] & E & H). cbn in E. subst. eauto. }
      assert (Hle : forall W, wwalk g s t W -> exists d', bl = Some d' /\ d' <= W).
      { intros W HW. destruct (met_edge s t fe be W Hst HM HW) as (u & v & du & pu & dv & pv & c & H1 & H2 & H3 & H4).
        destruct (B3 (du + c + dv) (pu ++ rev (tl pv) ++ [t])) as (d' & Ed & Hd); [exists u, v, du, pu, dv, pv, c; auto 6|].
        exists d'. split; [exact Ed|lia]. }
      destruct bl as [d|].
      + destruct (B1 d eq_refl) as (u & v & du & pu & dv & pv & c & Eu & Ev & Ec & -> & ->).
        destruct Ff as (_ & F1 & _). destruct Fb as (_ & F2 & _). destruct (F1 u du pu Eu) as [_ Pu]. destruct (F2 v dv pv Ev) as [_ Pv].
        assert (HP : vpath g s (pu ++ rev (tl pv) ++ [t]) t (du + c + dv)).
        { destruct (vpath_head g t pv v dv Pv) as [l' El]. rewrite El. cbn [tl]. change (rev l' ++ [t]) with (rev (t :: l')).
          rewrite <- El. apply (vpath_cat g Hg s pu u du pv t dv c v); assumption. }
        split; [|exact HP]. split; [apply (vpath_wwalk g _ _ _ _ HP)|].
        intros W HW. destruct (Hle W HW) as (d' & Ed & Hd). injection Ed as <-. exact Hd.
      + destruct (inS _ _ Hx1) as [dx Hdx]. destruct (inS _ _ Hx2) as [ex Hex].
        destruct (j_S _ _ _ _ _ JF x dx Hdx) as [EF _]. destruct (j_S _ _ _ _ _ JB x ex Hex) as [EB _].
        destruct (j_w _ _ _ _ _ JF x dx EF) as [WF _]. destruct (j_w _ _ _ _ _ JB x ex EB) as [WB _].
        destruct (Hle (dx + ex)) as (d' & Ed & _); [|discriminate].
        apply (wwalk_app g s x t); [exact WF|]. apply (wwalk_rev g Hg). exact WB.
  Qed.

  Lemma bidirectional_same s : vertex g s -> loop_free g -> dijkstra_bidirectional g s s = Ret (BiPair None []).
  Proof.
    intros Vs Hl. unfold dijkstra_bidirectional. rewrite (dmem_vertex g s Vs). cbn [negb bi_loop].
    destruct (bi_step_start s ([], it_start g s) Vs) as (fw & E1 & Hf). rewrite E1. cbn [bind fst dmem dget].
    destruct (bi_step_start s fw Vs) as (bw & E2 & Hb). change (dmem [] s) with false. cbn match. rewrite E2. cbn [bind].
    destruct Hf as (est & h & _ & _ & Ff). destruct Hb as (est' & h' & _ & _ & Fb).
    rewrite (proj2 (found_mem s (fst fw) _ s Ff) (or_introl eq_refl)). cbn [bind].
    destruct (bi_best_ok s (fst fw) (fst bw)) as ([bl bp] & Eb & B1 & B2 & B3).
    { apply Ff. }
    { intros u [du pu] Eu. destruct Ff as (_ & F1 & _). destruct (F1 u du pu Eu) as [[E|[]] _]. injection E as <- _. exact Vs. }
    rewrite Eb. cbn [bind fst snd] in *. destruct bl as [d|]; [|rewrite B2 by reflexivity; reflexivity].
    exfalso. destruct (B1 d eq_refl) as (u & v & du & pu & dv & pv & c & Eu & Ev & Ec & _).
    destruct Ff as (_ & F1 & _). destruct Fb as (_ & F2 & _). destruct (F1 u du pu Eu) as [[E|[]] _]. destruct (F2 v dv pv Ev) as [[E'|[]] _].
    injection E as <- _. injection E' as <- _. rewrite Hl in Ec. discriminate.
  Qed.
End Bidirectional.
