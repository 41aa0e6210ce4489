(** * DSATUR, and colouring by branch and bound *)
From Coq Require Import ZArith List Lia Bool Permutation.
From Verif Require Import Base Py Dict Lists Lists2 Graph_Model Graph_Spec Graph_Proofs Graph_Proofs2 Trav_Model Trav_Proofs Color_Model Color_Spec Color_Proofs.
Import ListNotations.
Open Scope Z_scope.

Section Colour2.
  Context (g : graph).
  Hypothesis Hg : undirected g.
  Hypothesis Hl : loop_free g.

  Lemma saturation_ret cm u : vertex g u -> exists a b, saturation g cm u = Ret (a, b, u).
  Proof.
    intros Hu. destruct (adj_row g Hg u Hu) as (a & Ea & _). unfold saturation, g_adj, dgetM. rewrite Ea. cbn [bind]. eauto.
  Qed.

  Lemma most_saturated_ok cm unc : unc <> [] -> (forall v, In v unc -> vertex g v) -> exists u, most_saturated g cm unc = Ret u /\ In u unc.
  Proof.
    intros Ne V. destruct unc as [|u l]; [congruence|]. cbn [most_saturated].
    destruct (saturation_ret cm u (V u (or_introl eq_refl))) as (a & b & ->). cbn [bind].
    destruct (foldM_inv (fun m v => do t <- saturation g cm v; Ret (if triple_lt m t then t else m))
                (fun pre m => In (snd m) (u :: pre)) l (a, b, u)) as (m & E & Hm).
    - left. reflexivity.
    - intros pre x post m E Hm. destruct (saturation_ret cm x) as (a' & b' & ->); [apply V; right; rewrite E; apply in_or_app; right; left; reflexivity|].
      cbn [bind]. eexists. split; [reflexivity|]. destruct (triple_lt m (a', b', x)); cbn [snd].
      + right. apply in_or_app. right. left. reflexivity.
      + destruct Hm as [Hm|Hm]; [left; exact Hm|right; apply in_or_app; left; exact Hm].
    - rewrite E. cbn [bind]. eauto.
  Qed.

  Lemma dsatur_loop_ok : forall fuel unc cm k, (length unc <= fuel)%nat -> pcol g 0 k cm -> 0 < k -> NoDup unc ->
    (forall v, vertex g v <-> In v unc \/ In v (dkeys cm)) -> (forall v, In v unc -> ~ In v (dkeys cm)) ->
    exists cm' k', dsatur_loop g fuel unc cm k = Ret (cm', k') /\ proper_map g 0 k' cm' /\ 0 < k' /\
      (forall D, k <= D + 1 -> (forall x, vertex g x -> degree0 g x <= D) -> k' <= D + 1).
  Proof.
    induction fuel as [|fuel IH]; intros unc cm k HF P K0 N HV HD.
    - destruct unc; [|cbn in HF; lia]. cbn. exists cm, k. split; [reflexivity|]. split; [|auto]. apply (pcol_total g); [exact P|]. intros v Hv. apply HV in Hv as [[]|Hv]. exact Hv.
    - destruct unc as [|u0 l0] eqn:Eu; [exists cm, k; split; [reflexivity|]; split; [|auto]; apply (pcol_total g); [exact P|]; intros v Hv; apply HV in Hv as [[]|Hv]; exact Hv|].
      rewrite <- Eu in *. assert (Ne : unc <> []) by (rewrite Eu; discriminate).
      assert (X : dsatur_loop g (S fuel) unc cm k = do u <- most_saturated g cm unc; do a <- g_adj g u;
        let st := give_colour cm k u (colours_of cm (dkeys a)) in dsatur_loop g fuel (without unc u) (fst st) (snd st)) by (rewrite Eu; reflexivity).
      rewrite X. destruct (most_saturated_ok cm unc Ne) as (u & -> & Hu); [intros v Hv; apply HV; left; exact Hv|]. cbn [bind].
      assert (Vu : vertex g u) by (apply HV; left; exact Hu). destruct (adj_row g Hg u Vu) as (a & Ea & Na & Ha). unfold g_adj, dgetM. rewrite Ea. cbn [bind].
      destruct (give_colour_ok g Hg Hl cm k u (dkeys a) P K0 Vu (HD u Hu) Na Ha) as (c & k' & -> & P' & C0 & K1 & K2 & CD & _). cbn [fst snd].
      destruct (IH (without unc u) (dset cm u c) k') as (cm' & k'' & E & PM & K3 & HB).
      + pose proof (without_len unc u N Hu). lia.
      + exact P'.
      + lia.
      + apply without_nodup, N.
      + intros v. rewrite HV, without_In, dkeys_dset_In. destruct (Z.eq_dec v u) as [->|]; tauto.
      + intros v Hv. apply without_In in Hv as [Hv Nv]. rewrite dkeys_dset_In. specialize (HD v Hv). tauto.
      + exists cm', k''. split; [exact E|]. split; [exact PM|]. split; [exact K3|]. intros D KD HDD. apply HB; [|exact HDD].
        specialize (HDD u Vu). unfold degree0 in HDD. rewrite Ea in HDD. unfold dkeys in CD. rewrite map_length in CD. lia.
  Qed.

  Lemma dsatur_ok ord classes : (forall l, Permutation (ord l) l) -> g <> [] ->
    exists cm k, dsatur g ord classes = Ret (k, if classes then Classes (color_classes 0 k cm) else ColorMap cm) /\
      proper_map g 0 k cm /\ 0 < k /\ (forall D, (forall x, vertex g x -> degree0 g x <= D) -> k <= D + 1).
  Proof.
    intros Ho Ne. unfold dsatur. destruct (maximum_degree_vertex_ok ord g Ho Ne) as (u & -> & Vu & _). cbn [bind].
    assert (Pv : forall x, In x (vertices g) <-> vertex g x) by (intros x; split; apply Permutation_in; [apply zsort_perm|symmetry; apply zsort_perm]).
    assert (Nv : NoDup (vertices g)) by (apply (Permutation_NoDup (Permutation_sym (zsort_perm (dkeys g)))), Hg).
    destruct (dsatur_loop_ok (length (dkeys g)) (without (vertices g) u) [(u, 0)] 1) as (cm & k & -> & PM & K0 & HB).
    - pose proof (without_len (vertices g) u Nv (proj2 (Pv u) Vu)) as L. pose proof (Permutation_length (zsort_perm (dkeys g))) as L'. unfold vertices in *. lia.
    - apply pcol_one; assumption.
    - lia.
    - apply without_nodup, Nv.
    - intros v. rewrite without_In, Pv. cbn. destruct (Z.eq_dec v u) as [->|]; [tauto|]. split; [tauto|]. intros [H|[H|[]]]; [tauto|congruence].
    - intros v Hv [<-|[]]. apply without_In in Hv. tauto.
    - cbn [bind]. exists cm, k. split; [reflexivity|]. split; [exact PM|]. split; [exact K0|]. intros D HD. apply HB; [|exact HD].
      specialize (HD u Vu). enough (0 <= degree0 g u) by lia. unfold degree0. destruct (dget g u); lia.
  Qed.

  (** ** Branch and bound *)
  (** f is a colouring of the whole graph with the colours 1, ..., K that extends cm. *)
  Definition extends (cm : list (Z * Z)) (f : Z -> Z) (K : Z) : Prop :=
    (forall v, vertex g v -> 1 <= f v <= K) /\ (forall u v, edge g u v -> f u <> f v) /\ forall v c, In (v, c) cm -> f v = c.

  Definition bnb_post (cm : list (Z * Z)) (k bn : Z) (best : Z * list (Z * Z)) (bn' : Z) (best' : Z * list (Z * Z)) : Prop :=
    fst best' = bn' /\ k <= bn' <= bn /\ (best' = best \/ proper_map g 1 bn' (snd best') /\ bn' < bn) /\
    forall f K, extends cm f K -> k <= K -> bn' <= K.

  Lemma extends_add cm u c f K : extends cm f K -> ~ In u (dkeys cm) -> f u = c -> extends (dset cm u c) f K.
  Proof.
    intros (A & B & C) Nu E. split; [exact A|]. split; [exact B|]. intros v d. rewrite (dset_new cm u c Nu). rewrite in_app_iff. intros [H|[H|[]]]; [apply C, H|].
    inversion H; subst. reflexivity.
  Qed.

  (** Exchanging two colours that cm does not use. *)
  Lemma extends_swap cm k f K u : pcol g 1 k cm -> 0 <= k -> extends cm f K -> vertex g u -> k < f u -> ~ In u (dkeys cm) ->
    exists f', extends (dset cm u (k + 1)) f' K.
  Proof.
    intros P K0 (A & B & C) Vu Hk Nu. set (sw := fun c => if c =? f u then k + 1 else if c =? k + 1 then f u else c).
    assert (SI : forall c d, sw c = sw d -> c = d).
    { intros c d. unfold sw. destruct (Z.eqb_spec c (f u)), (Z.eqb_spec d (f u)), (Z.eqb_spec c (k + 1)), (Z.eqb_spec d (k + 1)); intros; subst; congruence. }
    pose proof (A u Vu) as Au. exists (fun v => sw (f v)). apply extends_add; [|exact Nu|unfold sw; rewrite Z.eqb_refl; reflexivity].
    split; [|split].
    - intros v Hv. specialize (A v Hv). unfold sw. destruct (f v =? f u); [lia|]. destruct (f v =? k + 1); lia.
    - intros x y He E. apply SI in E. exact (B x y He E).
    - intros v c Hc. rewrite (C v c Hc). destruct P as (_ & _ & P & _). assert (1 <= c < 1 + k) by (apply P; exists v; exact Hc). unfold sw.
      destruct (Z.eqb_spec c (f u)); [lia|]. destruct (Z.eqb_spec c (k + 1)); [lia|reflexivity].
  Qed.

  Lemma free_ok cm u a j : (forall v, In v a <-> edge g u v) -> ~ In j (colours_of cm a) -> forall v, edge g u v -> dget cm v <> Some j.
  Proof using. intros Ha Nj v He E. apply Nj, colours_of_In. exists v. split; [apply Ha, He|exact E]. Qed.

  Lemma not_adj cm u a f K : (forall v, In v a <-> edge g u v) -> extends cm f K -> ~ In (f u) (colours_of cm a).
  Proof using.
    intros Ha (_ & B & C) Hj. apply colours_of_In in Hj as (v & Hv & E). apply Ha in Hv. apply dget_Some_In, C in E. exact (B u v Hv (eq_sym E)).
  Qed.

  Lemma bnb_color_ok : forall fuel unc cm k bn best, (length unc < fuel)%nat -> pcol g 1 k cm -> 0 <= k -> NoDup unc -> unc <> [] ->
    (forall v, vertex g v <-> In v unc \/ In v (dkeys cm)) -> (forall v, In v unc -> ~ In v (dkeys cm)) -> k <= bn -> fst best = bn ->
    exists bn' best', bnb_color g fuel unc cm k bn best = Ret (bn', best') /\ bnb_post cm k bn best bn' best'.
  Proof.
    induction fuel as [|fuel IH]; intros unc cm k bn best HF P K0 N Ne HV HD Kb Fb; [lia|].
    assert (CASE : (exists u, unc = [u]) \/ exists u1 u2 l, unc = u1 :: u2 :: l).
    { destruct unc as [|u1 [|u2 l]]; [congruence|left; eauto|right; eauto]. }
    destruct CASE as [(u & ->)|(u1 & u2 & l & Eu)].
    - cbn [bnb_color]. assert (Vu : vertex g u) by (apply HV; left; left; reflexivity).
      assert (Nu : ~ In u (dkeys cm)) by (apply HD; left; reflexivity).
      destruct (adj_row g Hg u Vu) as (a & Ea & Na & Ha). unfold g_adj, dgetM. rewrite Ea. cbn [bind].
      assert (TOT : forall c k', (1 <= c < 1 + k /\ k' = k \/ c = 1 + k /\ k' = k + 1) -> ~ In c (colours_of cm (dkeys a)) -> proper_map g 1 k' (dset cm u c)).
      { intros c k' Hc Nc. apply (pcol_total g).
        - apply (pcol_add g Hg Hl 1 k cm u c k' P K0 Vu Nu); [|exact Hc]. apply (free_ok cm u (dkeys a) c Ha Nc).
        - intros v Hv. apply dkeys_dset_In. apply HV in Hv as [[<-|[]]|Hv]; tauto. }
      destruct (find (fun j => negb (mem j (colours_of cm (dkeys a)))) (zrange 1 (k + 1))) as [j|] eqn:E.
      + apply find_some in E as [Rj Fj]. apply zrange_In in Rj. apply negb_true_iff, mem_false in Fj. eexists _, _. split; [reflexivity|].
        split; [|split; [lia|split; [|intros; lia]]].
        * destruct (Z.ltb_spec k (fst best)); cbn [fst]; lia.
        * destruct (Z.ltb_spec k (fst best)); [|left; reflexivity]. right. cbn [snd]. split; [apply (TOT j k); [lia|exact Fj]|lia].
      + assert (X : forall j, 1 <= j <= k -> In j (colours_of cm (dkeys a))).
        { intros j Hj. assert (Y : In j (zrange 1 (k + 1))) by (apply zrange_In; lia). apply (find_none _ _ E) in Y. apply negb_false_iff, mem_In in Y. exact Y. }
        assert (Y : forall f K, extends cm f K -> k <= K -> k + 1 <= K).
        { intros f K Hf HK. pose proof Hf as (A & _). specialize (A u Vu). destruct (Z_le_gt_dec (f u) k); [|lia]. exfalso. apply (not_adj cm u (dkeys a) f K Ha Hf). apply X. lia. }
        assert (Nk : ~ In (k + 1) (colours_of cm (dkeys a))).
        { intros H. apply colours_of_In in H as (v & _ & Ev). apply dget_Some_In in Ev. destruct P as (_ & _ & P & _). assert (1 <= k + 1 < 1 + k) by (apply P; exists v; exact Ev). lia. }
        destruct (Z.ltb_spec (k + 1) bn) as [L|L]; eexists _, _; (split; [reflexivity|]).
        * split; [|split; [lia|split; [|exact Y]]].
          -- destruct (Z.ltb_spec (k + 1) (fst best)); cbn [fst]; lia.
          -- destruct (Z.ltb_spec (k + 1) (fst best)); [|left; reflexivity]. right. cbn [snd]. split; [apply (TOT (k + 1) (k + 1)); [lia|exact Nk]|lia].
        * split; [exact Fb|]. split; [lia|]. split; [left; reflexivity|]. intros f K Hf HK. specialize (Y f K Hf HK). lia.
    - assert (X : bnb_color g (S fuel) unc cm k bn best =
        do u <- most_saturated g cm unc; do a <- g_adj g u;
        let adj := colours_of cm (dkeys a) in
        if Z.of_nat (length (nodup Z.eq_dec adj)) =? bn - 1 then Ret (bn, best)
        else do '(bn, best) <- foldM (fun st j => if mem j adj then Ret st
                                             else bnb_color g fuel (without unc u) (dset cm u j) k (fst st) (snd st)) (zrange 1 (k + 1)) (bn, best);
             if k <? bn - 1 then bnb_color g fuel (without unc u) (dset cm u (k + 1)) (k + 1) bn best else Ret (bn, best)) by (rewrite Eu; reflexivity).
      rewrite X. clear X. destruct (most_saturated_ok cm unc Ne) as (u & -> & Hu); [intros v Hv; apply HV; left; exact Hv|]. cbn [bind].
      assert (Vu : vertex g u) by (apply HV; left; exact Hu). pose proof (HD u Hu) as Nu.
      destruct (adj_row g Hg u Vu) as (a & Ea & Na & Ha). unfold g_adj, dgetM. rewrite Ea. cbn [bind]. cbv zeta.
      destruct (Z.eqb_spec (Z.of_nat (length (nodup Z.eq_dec (colours_of cm (dkeys a))))) (bn - 1)) as [Ec|Ec].
      { exists bn, best. split; [reflexivity|]. split; [exact Fb|]. split; [lia|]. split; [left; reflexivity|]. intros f K Hf HK.
        assert (L : (length (f u :: nodup Z.eq_dec (colours_of cm (dkeys a))) <= length (zrange 1 (K + 1)))%nat).
        { apply NoDup_incl_length.
          - constructor; [rewrite nodup_In; apply (not_adj cm u (dkeys a) f K Ha Hf)|apply NoDup_nodup].
          - intros c [<-|Hc]; apply zrange_In.
            + destruct Hf as (A & _). specialize (A u Vu). lia.
            + apply nodup_In, colours_of_In in Hc as (v & _ & Ev). apply dget_Some_In in Ev. destruct P as (_ & _ & P & _). assert (1 <= c < 1 + k) by (apply P; exists v; exact Ev). lia. }
        rewrite zrange_length in L. cbn [length] in L. lia. }
      assert (HF' : (length (without unc u) < fuel)%nat) by (pose proof (without_len unc u N Hu); lia).
      assert (N' : NoDup (without unc u)) by (apply without_nodup, N).
      assert (Ne' : without unc u <> []).
      { intros E. pose proof (without_len unc u N Hu) as L. rewrite E, Eu in L. cbn in L. lia. }
      assert (HV' : forall c v, vertex g v <-> In v (without unc u) \/ In v (dkeys (dset cm u c))).
      { intros c v. rewrite HV, without_In, dkeys_dset_In. destruct (Z.eq_dec v u) as [->|]; tauto. }
      assert (HD' : forall c v, In v (without unc u) -> ~ In v (dkeys (dset cm u c))).
      { intros c v Hv. apply without_In in Hv as [Hv Nv]. rewrite dkeys_dset_In. specialize (HD v Hv). tauto. }
      destruct (foldM_inv (fun st j => if mem j (colours_of cm (dkeys a)) then Ret st
                       else bnb_color g fuel (without unc u) (dset cm u j) k (fst st) (snd st))
        (fun pre st => fst (snd st) = fst st /\ k <= fst st <= bn /\ (snd st = best \/ proper_map g 1 (fst st) (snd (snd st)) /\ fst st < bn) /\
           forall j f K, In j pre -> extends cm f K -> f u = j -> k <= K -> fst st <= K) (zrange 1 (k + 1)) (bn, best))
        as ([bn1 best1] & E & F1 & R1 & B1 & X1).
      + cbn [fst snd]. split; [exact Fb|]. split; [lia|]. split; [left; reflexivity|]. intros j f K [].
      + intros pre j post [bni bi] Ej (Fi & Ri & Bi & Xi). cbn [fst snd] in *.
        assert (Rj : 1 <= j < 1 + k).
        { assert (In j (zrange 1 (k + 1))) by (rewrite Ej; apply in_or_app; right; left; reflexivity). apply zrange_In in H. lia. }
        destruct (mem j (colours_of cm (dkeys a))) eqn:M.
        * exists (bni, bi). split; [reflexivity|]. cbn [fst snd]. split; [exact Fi|]. split; [exact Ri|]. split; [exact Bi|].
          intros j' f K Hj Hf Ef HK. apply in_app_iff in Hj as [Hj|[<-|[]]]; [apply (Xi j' f K); assumption|].
          exfalso. apply (not_adj cm u (dkeys a) f K Ha Hf). rewrite Ef. apply mem_In, M.
        * apply mem_false in M.
          destruct (IH (without unc u) (dset cm u j) k bni bi HF') as (bn' & best' & E & F' & R' & B' & X').
          -- apply (pcol_add g Hg Hl 1 k cm u j k P K0 Vu Nu (free_ok cm u (dkeys a) j Ha M)). left. lia.
          -- exact K0.
          -- exact N'.
          -- exact Ne'.
          -- apply HV'.
          -- apply HD'.
          -- lia.
          -- exact Fi.
          -- exists (bn', best'). split; [exact E|]. cbn [fst snd]. split; [exact F'|]. split; [lia|]. split.
             ++ destruct B' as [->|[PM L]]; [|right; split; [exact PM|lia]]. destruct Bi as [->|[PM L]]; [left; reflexivity|right].
                rewrite <- F', Fi. split; [exact PM|exact L].
             ++ intros j' f K Hj Hf Ef HK. apply in_app_iff in Hj as [Hj|[<-|[]]]; [specialize (Xi j' f K Hj Hf Ef HK); lia|].
                apply (X' f K); [|exact HK]. apply extends_add; assumption.
      + rewrite E. cbn [bind]. cbn [fst snd] in *.
        assert (SMALL : forall f K, extends cm f K -> k <= K -> f u <= k -> bn1 <= K).
        { intros f K Hf HK L. apply (X1 (f u) f K); [|exact Hf|reflexivity|exact HK]. apply zrange_In. destruct Hf as (A & _). specialize (A u Vu). lia. }
        destruct (Z.ltb_spec k (bn1 - 1)) as [L|L].
        * destruct (IH (without unc u) (dset cm u (k + 1)) (k + 1) bn1 best1 HF') as (bn' & best' & E' & F' & R' & B' & X').
          -- apply (pcol_add g Hg Hl 1 k cm u (k + 1) (k + 1) P K0 Vu Nu); [|right; lia]. apply (free_ok cm u (dkeys a) (k + 1) Ha).
             intros H. apply colours_of_In in H as (v & _ & Ev). apply dget_Some_In in Ev. destruct P as (_ & _ & P & _). assert (1 <= k + 1 < 1 + k) by (apply P; exists v; exact Ev). lia.
          -- lia.
          -- exact N'.
          -- exact Ne'.
          -- apply HV'.
          -- apply HD'.
          -- lia.
          -- exact F1.
          -- exists bn', best'. split; [exact E'|]. split; [exact F'|]. split; [lia|]. split.
             ++ destruct B' as [->|[PM L']]; [|right; split; [exact PM|lia]]. destruct B1 as [->|[PM L']]; [left; reflexivity|right]. rewrite <- F', F1. split; [exact PM|exact L'].
             ++ intros f K Hf HK. destruct (Z_le_gt_dec (f u) k) as [S1|S1]; [specialize (SMALL f K Hf HK S1); lia|].
                destruct (extends_swap cm k f K u P K0 Hf Vu ltac:(lia) Nu) as (f' & Hf'). apply (X' f' K Hf').
                destruct Hf as (A & _). specialize (A u Vu). lia.
        * exists bn1, best1. split; [reflexivity|]. split; [exact F1|]. split; [lia|]. split; [exact B1|].
          intros f K Hf HK. destruct (Z_le_gt_dec (f u) k) as [S1|S1]; [apply (SMALL f K Hf HK S1)|]. destruct Hf as (A & _). specialize (A u Vu). lia.
  Qed.

  (** One colour for each vertex of a list. *)
  Fixpoint place (l : list Z) (v : Z) : Z :=
    match l with [] => 0 | x :: l' => if x =? v then 1 else 1 + place l' v end.
  Lemma place_range l v : In v l -> 1 <= place l v <= Z.of_nat (length l).
  Proof using.
    induction l as [|x l IH]; intros H; [destruct H|]. cbn [place length]. destruct (Z.eqb_spec x v); [lia|]. destruct H as [H|H]; [congruence|]. specialize (IH H). lia.
  Qed.
  Lemma place_inj l u v : In u l -> In v l -> place l u = place l v -> u = v.
  Proof using.
    induction l as [|x l IH]; intros Hu Hv E; [destruct Hu|]. cbn [place] in E. destruct (Z.eqb_spec x u), (Z.eqb_spec x v); try congruence.
    - destruct Hv as [Hv|Hv]; [congruence|]. pose proof (place_range l v Hv). lia.
    - destruct Hu as [Hu|Hu]; [congruence|]. pose proof (place_range l u Hu). lia.
    - destruct Hu as [Hu|Hu]; [congruence|]. destruct Hv as [Hv|Hv]; [congruence|]. apply IH; [exact Hu|exact Hv|lia].
  Qed.

  Lemma colourable_all : colourable g (Z.of_nat (length (dkeys g))).
  Proof.
    exists (place (dkeys g)). split; [intros v Hv; apply place_range, Hv|]. intros u v He E.
    assert (Vv : vertex g v) by (destruct Hg as (_ & _ & H & _); apply (H u v He)).
    assert (Vu : vertex g u) by (destruct Hg as (_ & _ & H & _); apply (H v u (edge_sym' g Hg u v He))).
    apply place_inj in E; [|exact Vu|exact Vv]. subst. exact (no_loop' g Hl v He).
  Qed.

  Lemma colourable_fewer u v : vertex g u -> vertex g v -> u <> v -> ~ edge g u v -> colourable g (Z.of_nat (length (dkeys g)) - 1).
  Proof.
    intros Vu Vv Nuv Ne. set (l := without (dkeys g) v). assert (Ng : NoDup (dkeys g)) by apply Hg.
    assert (Len : Z.of_nat (length (dkeys g)) - 1 = Z.of_nat (length l)) by (pose proof (without_len (dkeys g) v Ng Vv); unfold l; lia).
    assert (Hl' : forall x, vertex g x -> x <> v -> In x l) by (intros x Hx Nx; apply without_In; split; assumption).
    rewrite Len. exists (fun x => if x =? v then place l u else place l x). split.
    - intros x Hx. destruct (Z.eqb_spec x v); apply place_range, Hl'; auto.
    - intros x y He. assert (Vy : vertex g y) by (destruct Hg as (_ & _ & H & _); apply (H x y He)).
      assert (Vx : vertex g x) by (destruct Hg as (_ & _ & H & _); apply (H y x (edge_sym' g Hg x y He))).
      destruct (Z.eqb_spec x v) as [->|Nx], (Z.eqb_spec y v) as [->|Ny]; intros E.
      + exact (no_loop' g Hl v He).
      + apply place_inj in E; [|apply Hl'; auto|apply Hl'; auto]. subst y. exact (Ne (edge_sym' g Hg v u He)).
      + apply place_inj in E; [|apply Hl'; auto|apply Hl'; auto]. subst x. exact (Ne He).
      + apply place_inj in E; [|apply Hl'; auto|apply Hl'; auto]. subst y. exact (no_loop' g Hl x He).
  Qed.

  Lemma complete_bound k : 0 <= k -> complete g -> colourable g k -> Z.of_nat (length (dkeys g)) <= k.
  Proof.
    intros K0 Hc (f & A & B). destruct (Z_le_gt_dec (Z.of_nat (length (dkeys g))) k) as [|G]; [assumption|]. exfalso.
    assert (N : NoDup (map f (dkeys g))).
    { apply NoDup_map_inj; [apply Hg|]. intros x y Hx Hy E. destruct (Z.eq_dec x y) as [|Nxy]; [assumption|]. exfalso. exact (B x y (Hc x y Hx Hy Nxy) E). }
    assert (L : (length (map f (dkeys g)) <= length (zrange 1 (k + 1)))%nat).
    { apply NoDup_incl_length; [exact N|]. intros c Hx. apply in_map_iff in Hx as (x & <- & Hx). apply zrange_In. specialize (A x Hx). lia. }
    rewrite map_length, zrange_length in L. lia.
  Qed.

  Lemma branch_and_bound_ok classes : g <> [] ->
    exists k cm, branch_and_bound g classes = Ret (k, if classes then Classes (color_classes 1 k cm) else ColorMap cm) /\
      chromatic_number g k /\ 0 < k /\ (~ complete g -> proper_map g 1 k cm) /\ (complete g -> cm = [] /\ k = num_vertices g).
  Proof.
    intros Ne. unfold branch_and_bound. 
    assert (Pv : forall x, In x (vertices g) <-> vertex g x) by (intros x; split; apply Permutation_in; [apply zsort_perm|symmetry; apply zsort_perm]).
    assert (Nv : NoDup (vertices g)) by (apply (Permutation_NoDup (Permutation_sym (zsort_perm (dkeys g)))), Hg).
    assert (Lv : length (vertices g) = length (dkeys g)) by apply (Permutation_length (zsort_perm (dkeys g))). rewrite Lv.
    set (n := Z.of_nat (length (dkeys g))). assert (n0 : 0 < n) by (unfold n, dkeys; rewrite map_length; destruct g; [congruence|cbn; lia]).
    destruct (bnb_color_ok (S (length (dkeys g))) (vertices g) [] 0 n (n, [])) as (bn & [bk cm] & -> & F & R & B & X).
    - lia.
    - split; [constructor|]. split; [intros v []|]. split; [|intros u v c d []]. intros c. split; [intros (v & [])|lia].
    - lia.
    - exact Nv.
    - intros E. apply (f_equal (@length Z)) in E. cbn [length] in E. unfold n in n0. lia.
    - intros v. rewrite Pv. cbn. tauto.
    - intros v _ [].
    - lia.
    - reflexivity.
    - cbn [bind]. cbn [fst snd] in *. subst bk. exists bn, cm. split; [reflexivity|].
      assert (MIN : forall k', colourable g k' -> bn <= k').
      { intros k' (f & A & E). apply (X f k'); [split; [exact A|split; [exact E|intros v c []]]|].
        destruct g as [|[v a] g'] eqn:Eg; [congruence|]. specialize (A v (or_introl eq_refl)). lia. }
      assert (CN : chromatic_number g bn).
      { split; [|exact MIN]. destruct B as [B|[PM L]]; [inversion B; subst; apply colourable_all|].
        destruct PM as (A & V & C & D). exists (fun v => match dget cm v with Some c => c | None => 0 end). split.
        - intros v Hv. apply V, dget_key in Hv as (c & Ec). rewrite Ec. apply dget_Some_In in Ec. assert (1 <= c < 1 + bn) by (apply C; exists v; exact Ec). lia.
        - intros u v He. assert (Vv : vertex g v) by (destruct Hg as (_ & _ & H & _); apply (H u v He)).
          assert (Vu : vertex g u) by (destruct Hg as (_ & _ & H & _); apply (H v u (edge_sym' g Hg u v He))).
          apply V, dget_key in Vu as (c & Ec). apply V, dget_key in Vv as (d & Ed). rewrite Ec, Ed. apply dget_Some_In in Ec, Ed. exact (D u v c d Ec Ed He). }
      split; [exact CN|]. split; [|split].
      + destruct CN as ((f & A & _) & _). destruct g as [|[v a] g'] eqn:Eg; [congruence|]. specialize (A v (or_introl eq_refl)). lia.
      + intros Nc. destruct B as [B|[PM _]]; [|exact PM]. exfalso. apply Nc. intros u v Vu Vv Nuv.
        destruct (dget g u) as [au|] eqn:Eu; [|apply dget_key in Vu as (y & Ey); congruence].
        destruct (weight g u v) as [w|] eqn:Ew; [exists w; exact Ew|]. exfalso.
        assert (Ne' : ~ edge g u v) by (intros (w & E); congruence). inversion B as [[E1 E2]].
        pose proof (MIN _ (colourable_fewer u v Vu Vv Nuv Ne')) as M. fold n in M. lia.
      + intros Hc. pose proof (complete_bound bn ltac:(lia) Hc (proj1 CN)) as Lb. fold n in Lb. destruct B as [B|[_ L]]; [|lia]. inversion B. split; [reflexivity|]. reflexivity.
  Qed.
End Colour2.
