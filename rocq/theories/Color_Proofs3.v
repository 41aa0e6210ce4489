(** * DSATUR follows its rule *)
From Coq Require Import ZArith List Lia Bool Permutation.
From Verif Require Import Base Py Dict Lists Lists2 Count Graph_Model Graph_Spec Graph_Proofs Graph_Proofs2 Trav_Model Trav_Proofs Color_Model Color_Spec Color_Spec2 Color_Proofs Color_Proofs2.
Import ListNotations.
Open Scope Z_scope.

Lemma find_least (p : Z -> bool) c : forall k lo, find p (zrange lo k) = Some c -> lo <= c < k /\ p c = true /\ forall j, lo <= j < c -> p j = false.
Proof.
  intros k lo. remember (Z.to_nat (k - lo)) as m eqn:Em. revert lo Em. induction m as [|m IH]; intros lo Em E.
  - rewrite zrange_nil in E by lia. discriminate.
  - rewrite zrange_cons in E by lia. cbn [find] in E. destruct (p lo) eqn:P.
    + injection E as <-. split; [lia|]. split; [exact P|]. lia.
    + destruct (IH (lo + 1) ltac:(lia) E) as (A & B & C). split; [lia|]. split; [exact B|]. intros j Hj. destruct (Z.eq_dec j lo) as [->|]; [exact P|apply C; lia].
Qed.

Section Rule.
  Context (g : graph).
  Hypothesis Hg : undirected g.
  Hypothesis Hl : loop_free g.

  Lemma saturation_counts cm u : NoDup (dkeys cm) -> vertex g u -> exists s f, saturation g cm u = Ret (s, f, u) /\ colour_degree g cm u s /\ free_degree g cm u f.
  Proof using Hg.
    intros N Hu. destruct (adj_row g Hg u Hu) as (a & Ea & Na & Ha). unfold saturation, g_adj, dgetM. rewrite Ea. cbn [bind]. eexists _, _. split; [reflexivity|]. split.
    - eexists. split; [apply NoDup_nodup|]. split; [|reflexivity]. intros c. rewrite nodup_In, colours_of_In. split.
      + intros (v & Hv & Ev). exists v. split; [apply Ha, Hv|]. apply dget_Some_In, Ev.
      + intros (v & Hv & Iv). exists v. split; [apply Ha, Hv|]. apply dget_In; assumption.
    - eexists. split; [apply NoDup_filter, Na|]. split; [|reflexivity]. intros v. rewrite filter_In, Ha, negb_true_iff. unfold dmem. split.
      + intros (A & B). split; [exact A|]. destruct (dget cm v) eqn:E; [discriminate|]. apply dget_None. exact E.
      + intros (A & B). split; [exact A|]. apply dget_None in B. rewrite B. reflexivity.
  Qed.

  Definition below (x y : Z * Z * Z) : Prop := fst (fst x) < fst (fst y) \/ (fst (fst x) = fst (fst y) /\ snd (fst x) <= snd (fst y)).

  Lemma triple_lt_below x y : (triple_lt x y = true -> below x y) /\ (triple_lt x y = false -> below y x).
  Proof.
    destruct x as ((a, b), c), y as ((a', b'), c'). unfold triple_lt, below. cbn [fst snd].
    destruct (Z.ltb_spec a a'), (Z.eqb_spec a a'), (Z.ltb_spec b b'), (Z.eqb_spec b b'), (Z.ltb_spec c c'); cbn [orb andb]; split; intros X; try discriminate; lia.
  Qed.
  Lemma below_trans x y z : below x y -> below y z -> below x z.
  Proof. unfold below. lia. Qed.
  Lemma below_refl x : below x x.
  Proof. unfold below. lia. Qed.

  Lemma most_saturated_rule cm unc : NoDup (dkeys cm) -> unc <> [] -> (forall v, In v unc -> vertex g v) ->
    exists u, most_saturated g cm unc = Ret u /\ In u unc /\
      forall v s f s' f', In v unc -> colour_degree g cm u s -> free_degree g cm u f -> colour_degree g cm v s' -> free_degree g cm v f' -> s' < s \/ (s' = s /\ f' <= f).
  Proof using Hg.
    intros N Ne V. destruct unc as [|u l]; [congruence|]. cbn [most_saturated].
    destruct (saturation_counts cm u N (V u (or_introl eq_refl))) as (s0 & f0 & E0 & C0 & F0). rewrite E0. cbn [bind].
    destruct (foldM_inv (fun m v => do t <- saturation g cm v; Ret (if triple_lt m t then t else m))
                (fun pre m => In (snd m) (u :: pre) /\ saturation g cm (snd m) = Ret m /\ forall v t, In v (u :: pre) -> saturation g cm v = Ret t -> below t m) l (s0, f0, u)) as (m & E & Hm & Sm & Bm).
    - split; [left; reflexivity|]. split; [exact E0|]. intros v t [<-|[]] Ht. rewrite E0 in Ht. injection Ht as <-. apply below_refl.
    - intros pre x post m E (Hm & Sm & Bm). destruct (saturation_counts cm x N) as (s & f & Ex & _ & _); [apply V; right; rewrite E; apply in_or_app; right; left; reflexivity|].
      rewrite Ex. cbn [bind]. eexists. split; [reflexivity|]. destruct (triple_lt_below m (s, f, x)) as (T1 & T2). destruct (triple_lt m (s, f, x)); cbn [snd].
      + specialize (T1 eq_refl). split; [right; apply in_or_app; right; left; reflexivity|]. split; [exact Ex|]. intros v t [<-|Hv] Ht.
        * eapply below_trans; [apply (Bm u t (or_introl eq_refl) Ht)|exact T1].
        * apply in_app_iff in Hv as [Hv|[<-|[]]]; [eapply below_trans; [apply (Bm v t (or_intror Hv) Ht)|exact T1]|]. rewrite Ex in Ht. injection Ht as <-. apply below_refl.
      + specialize (T2 eq_refl). split; [destruct Hm as [Hm|Hm]; [left; exact Hm|right; apply in_or_app; left; exact Hm]|]. split; [exact Sm|]. intros v t [<-|Hv] Ht.
        * apply (Bm u t (or_introl eq_refl) Ht).
        * apply in_app_iff in Hv as [Hv|[<-|[]]]; [apply (Bm v t (or_intror Hv) Ht)|]. rewrite Ex in Ht. injection Ht as <-. exact T2.
    - rewrite E. cbn [bind]. exists (snd m). split; [reflexivity|]. split; [exact Hm|]. intros v s f s' f' Hv Cu Fu Cv Fv.
      destruct (saturation_counts cm (snd m) N (V _ Hm)) as (s1 & f1 & E1 & C1 & F1). destruct (saturation_counts cm v N (V v Hv)) as (s2 & f2 & E2 & C2 & F2).
      rewrite Sm in E1. injection E1 as E1. specialize (Bm v _ Hv E2). rewrite E1 in Bm. unfold below in Bm. cbn [fst snd] in Bm.
      rewrite (number_of_unique _ _ _ Cu C1), (number_of_unique _ _ _ Fu F1), (number_of_unique _ _ _ Cv C2), (number_of_unique _ _ _ Fv F2). exact Bm.
  Qed.

  Lemma dsatur_loop_rule : forall fuel unc cm k, (length unc <= fuel)%nat -> pcol g 0 k cm -> 0 < k -> NoDup unc ->
    (forall v, vertex g v <-> In v unc \/ In v (dkeys cm)) -> (forall v, In v unc -> ~ In v (dkeys cm)) -> dsatur_coloured g cm ->
    exists cm' k', dsatur_loop g fuel unc cm k = Ret (cm', k') /\ dsatur_coloured g cm'.
  Proof using Hg Hl.
    induction fuel as [|fuel IH]; intros unc cm k HF P K0 N HV HD DC.
    - destruct unc; [|cbn in HF; lia]. exists cm, k. split; [reflexivity|exact DC].
    - destruct unc as [|u0 l0] eqn:Eu; [exists cm, k; split; [reflexivity|exact DC]|].
      rewrite <- Eu in *. assert (Ne : unc <> []) by (rewrite Eu; discriminate).
      assert (X : dsatur_loop g (S fuel) unc cm k = do u <- most_saturated g cm unc; do a <- g_adj g u;
        let st := give_colour cm k u (colours_of cm (dkeys a)) in dsatur_loop g fuel (without unc u) (fst st) (snd st)) by (rewrite Eu; reflexivity).
      assert (Nc : NoDup (dkeys cm)) by apply P.
      rewrite X. destruct (most_saturated_rule cm unc Nc Ne) as (u & -> & Hu & Mu); [intros v Hv; apply HV; left; exact Hv|]. cbn [bind].
      assert (Vu : vertex g u) by (apply HV; left; exact Hu). destruct (adj_row g Hg u Vu) as (a & Ea & Na & Ha). unfold g_adj, dgetM. rewrite Ea. cbn [bind].
      destruct (give_colour_ok g Hg Hl cm k u (dkeys a) P K0 Vu (HD u Hu) Na Ha) as (c & k' & Eg & P' & C0 & K1 & K2 & _). rewrite Eg. cbn [fst snd].
      apply (IH (without unc u) (dset cm u c) k').
      + pose proof (without_len unc u N Hu). lia.
      + exact P'.
      + lia.
      + apply without_nodup, N.
      + intros v. rewrite HV, without_In, dkeys_dset_In. destruct (Z.eq_dec v u) as [->|]; tauto.
      + intros v Hv. apply without_In in Hv as [Hv Nv]. rewrite dkeys_dset_In. specialize (HD v Hv). tauto.
      + assert (Ec : find (fun c => negb (mem c (colours_of cm (dkeys a)))) (zrange 0 (k + 1)) = Some c).
        { unfold give_colour in Eg. destruct (find _ _) as [c'|]; injection Eg as Eg.
          - rewrite !(dset_new cm u) in Eg by (apply HD, Hu). apply app_inv_head in Eg. injection Eg as ->. reflexivity.
          - exfalso. apply (HD u Hu). rewrite Eg. apply dkeys_dset_In. auto. }
        apply find_least in Ec as (_ & Fc & Lc). rewrite (dset_new cm u c) by (apply HD, Hu). apply dc_next; [exact DC|exact Vu|apply HD, Hu| |exact C0| |].
        * intros v s f s' f' Vv Nv. apply Mu. apply HV in Vv as [Vv|Vv]; [exact Vv|contradiction].
        * intros v Ev Iv. apply negb_true_iff in Fc. assert (mem c (colours_of cm (dkeys a)) = true); [|congruence]. apply mem_In, colours_of_In. exists v. split; [apply Ha, Ev|apply dget_In; assumption].
        * intros j Hj. specialize (Lc j Hj). apply negb_false_iff, mem_In, colours_of_In in Lc as (v & Hv & Ev). exists v. split; [apply Ha, Hv|apply dget_Some_In, Ev].
  Qed.
End Rule.
