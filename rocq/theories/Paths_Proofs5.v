(** * bellman_ford *)
From Coq Require Import ZArith List Lia Bool.
From Verif Require Import Base Py Dict Lists2 Graph_Model Graph_Spec Graph_Proofs
  Trav_Model Trav_Spec Trav_Proofs Trav_Proofs2 Paths_Model Paths_Spec Paths_Proofs Paths_Proofs2 Paths_Proofs4.
Import ListNotations.
Open Scope Z_scope.

Section Counts.
  (** sums of the values of a dictionary *)
  Definition dsum (d : list (Z * Z)) : Z := fold_right (fun x t => snd x + t) 0 d.

  Lemma dsum_dset : forall d k v x, dget d k = Some x -> dsum (dset d k v) = dsum d - x + v.
  Proof.
    induction d as [|[k' y] d IH]; intros k v x E; cbn [dget] in E; [discriminate|]. cbn [dset].
    destruct (Z.eqb_spec k' k) as [->|Hne].
    - injection E as ->. cbn [dsum fold_right snd]. fold (dsum d). lia.
    - cbn [dsum fold_right snd]. fold (dsum d). fold (dsum (dset d k v)). rewrite (IH k v x E). lia.
  Qed.

  Lemma dset_length : forall (d : list (Z * Z)) k v x, dget d k = Some x -> length (dset d k v) = length d.
  Proof.
    induction d as [|[k' y] d IH]; intros k v x E; cbn [dget] in E; [discriminate|]. cbn [dset].
    destruct (k' =? k); [reflexivity|]. cbn [length]. rewrite (IH k v x E). reflexivity.
  Qed.

  Lemma dsum_le n : forall d, (forall k v, In (k, v) d -> v <= n) -> dsum d <= n * Z.of_nat (length d).
  Proof.
    induction d as [|[k v] d IH]; intros H; [cbn; lia|]. cbn [dsum fold_right snd length]. fold (dsum d).
    assert (v <= n) by (apply (H k); left; reflexivity).
    assert (dsum d <= n * Z.of_nat (length d)) by (apply IH; intros; eapply H; right; eassumption). lia.
  Qed.
End Counts.

Section BF.
  Context (g : graph) (s : Z).
  Hypothesis Hg : undirected g.
  Hypothesis Hs : vertex g s.

  Lemma wt_vertex u v c : weight g u v = Some c -> vertex g v.
  Proof. intros E. destruct Hg as (_ & _ & K & _). apply (K u). exists c. exact E. Qed.

  Lemma getD_dset (d : dists) k x v : getD (dset d k x) v = if k =? v then x else getD d v.
  Proof. unfold getD. rewrite dget_dset. destruct (k =? v); reflexivity. Qed.

  Lemma getD_ret (d : dists) v : keysok g d -> vertex g v -> dgetM d v = Ret (getD d v).
  Proof. intros HK Hv. apply HK in Hv. apply dget_key in Hv. destruct Hv as [x E]. unfold dgetM, getD. rewrite E. reflexivity. Qed.

  Lemma keysok_dset (d : dists) k x : keysok g d -> keysok g (dset d k x).
  Proof. intros HK v Hv. apply dkeys_dset_In. auto. Qed.

  Definition relaxed (D : Z -> option Z) (u v c : Z) : Prop :=
    forall du, D u = Some du -> exists dv, D v = Some dv /\ dv <= du + c.

  (** ** What holds in all graphs *)
  Record B0 (cost : dists) (stack : list Z) : Prop := {
    b0_k : keysok g cost;
    b0_w : forall v d, getD cost v = Some d -> wwalk g s v d;
    b0_s : exists d, getD cost s = Some d /\ d <= 0;
    b0_v : forall v, In v stack -> vertex g v /\ exists d, getD cost v = Some d }.

  Definition edge_in (row : list (Z * Z)) v c := In (v, c) row.

  Lemma bf_relax_ok u row cost prev stack : dget g u = Some row -> NoDup (map fst row) -> B0 cost stack -> vertex g u ->
    (exists d, getD cost u = Some d) ->
    (forall x, x <> u -> ~ In x stack -> forall v c, weight g x v = Some c -> relaxed (getD cost) x v c) ->
    exists cost' prev' stack', bf_relax u row (cost, prev, stack) = Ret (cost', prev', stack') /\ B0 cost' stack' /\
      (forall x, ~ In x stack' -> forall v c, weight g x v = Some c -> relaxed (getD cost') x v c).
  Proof.
    intros Er Nr H0 Vu Hfu Hrel. unfold bf_relax.
    set (I := fun (done : list (Z * Z)) (st : dists * prevs * list Z) => let '(cost, prev, stack) := st in
      B0 cost stack /\ (exists d, getD cost u = Some d) /\
      (forall x, x <> u -> ~ In x stack -> forall v c, weight g x v = Some c -> relaxed (getD cost) x v c) /\
      (~ In u stack -> forall v c, In (v, c) done -> relaxed (getD cost) u v c)).
    match goal with |- context [foldM ?f row ?st] => destruct (foldM_inv f I row st) as ([[cost' prev'] stack'] & E & HB & Hfu' & H1 & H2) end.
    - cbn. split; [exact H0|]. split; [exact Hfu|]. split; [exact Hrel|]. intros _ v c [].
    - intros pre [v c] post [[co pr] st] Erow (HB & (du & Edu) & H1 & H2).
      assert (Ec : weight g u v = Some c).
      { unfold weight. rewrite Er. apply dget_In; [exact Nr|]. rewrite Erow. apply in_or_app. right. left. reflexivity. }
      pose proof (wt_vertex _ _ _ Ec) as Vv. destruct HB as [HK HW HS HV].
      rewrite (getD_ret co u HK Vu), (getD_ret co v HK Vv). cbn [bind]. rewrite Edu.
      destruct (ltx (du + c) (getD co v)) eqn:El.
      + eexists. split; [reflexivity|]. cbn.
        assert (Hsub : forall x, In x st -> In x (if mem v st then st else st ++ [v])) by (intros x Hx; destruct (mem v st); [exact Hx|apply in_or_app; auto]).
        assert (Hv : In v (if mem v st then st else st ++ [v])).
        { destruct (mem v st) eqn:Em; [apply mem_In; exact Em|apply in_or_app; right; left; reflexivity]. }
        assert (Hfin : forall x, (exists d, getD co x = Some d) -> exists d, getD (dset co v (Some (du + c))) x = Some d).
        { intros x Hx. rewrite getD_dset. destruct (v =? x); [eauto|exact Hx]. }
        assert (Hkeep : forall x y k, ~ In x (if mem v st then st else st ++ [v]) -> relaxed (getD co) x y k -> relaxed (getD (dset co v (Some (du + c)))) x y k).
        { intros x y k Hx Hr dx. rewrite !getD_dset. destruct (Z.eqb_spec v x) as [->|Hne]; [tauto|].
          intros Edx. destruct (Hr dx Edx) as (dy & Ey & Hy). destruct (Z.eqb_spec v y) as [->|Hne'].
          - rewrite Ey in El. apply ltx_true in El. exists (du + c). split; [reflexivity|lia].
          - eauto. }
        split; [|split; [|split]].
        * constructor.
          -- apply keysok_dset. exact HK.
          -- intros x d. rewrite getD_dset. destruct (Z.eqb_spec v x) as [->|]; [|apply HW].
             intros Ed. injection Ed as <-. apply wwalk_snoc with u; [apply HW; exact Edu|exact Ec].
          -- destruct HS as (ds & Es & Hds). rewrite getD_dset. destruct (Z.eqb_spec v s) as [->|]; [|eauto].
             rewrite Es in El. apply ltx_true in El. exists (du + c). split; [reflexivity|lia].
          -- intros x Hx. assert (Hx' : x = v \/ In x st).
             { destruct (mem v st); [auto|]. apply in_app_iff in Hx. destruct Hx as [Hx|[<-|[]]]; auto. }
             destruct Hx' as [->|Hx']; [|split; [apply (HV x Hx')|apply Hfin; apply (HV x Hx')]].
             split; [exact Vv|]. rewrite getD_dset, Z.eqb_refl. eauto.
        * apply Hfin. eauto.
        * intros x Hxu Hx y k Hk. apply Hkeep; [exact Hx|]. apply H1; auto.
        * intros Hu y k Hin. assert (Hvu : v <> u) by (intros ->; tauto).
          apply in_app_iff in Hin. destruct Hin as [Hin|[E|[]]].
          -- apply Hkeep; [exact Hu|]. apply H2; auto.
          -- injection E as <- <-. intros dx. rewrite !getD_dset, Z.eqb_refl. destruct (Z.eqb_spec v u); [congruence|].
             rewrite Edu. intros E. injection E as <-. exists (du + c). split; [reflexivity|lia].
      + eexists. split; [reflexivity|]. cbn. split; [constructor; assumption|]. split; [eauto|]. split; [exact H1|].
        intros Hu y k Hin. apply in_app_iff in Hin. destruct Hin as [Hin|[E|[]]]; [apply H2; auto|]. injection E as <- <-.
        intros dx Edx. rewrite Edu in Edx. injection Edx as <-. apply ltx_false in El. exact El.
    - exists cost', prev', stack'. split; [exact E|]. split; [exact HB|]. intros x Hx v c Hc.
      destruct (Z.eq_dec x u) as [->|Hne]; [|apply H1; auto]. apply H2; [exact Hx|].
      unfold weight in Hc. rewrite Er in Hc. apply dget_Some_In. exact Hc.
  Qed.

  Definition closed (cost : dists) : Prop := forall x v c, weight g x v = Some c -> relaxed (getD cost) x v c.

  Lemma bf_loop_any : forall fuel count cost prev stack, B0 cost stack -> NoDup (dkeys count) ->
    (forall v, vertex g v -> In v (dkeys count)) -> length count = length g ->
    (forall v k, In (v, k) count -> k <= Z.of_nat (length g)) ->
    Z.of_nat (length g) * Z.of_nat (length g) < Z.of_nat fuel + dsum count ->
    (forall x, ~ In x stack -> forall v c, weight g x v = Some c -> relaxed (getD cost) x v c) ->
    bf_loop g fuel count cost prev stack = Raise ValueError \/
    exists cost' prev', bf_loop g fuel count cost prev stack = Ret (cost', prev') /\ B0 cost' [] /\ closed cost'.
  Proof.
    induction fuel as [|fuel IH]; intros count cost prev stack H0 Nc Hc Lc Hle Hf Hrel;
      (destruct stack as [|u stack]; [right; exists cost, prev; split; [reflexivity|]; split; [exact H0|]; intros x v c; apply Hrel; intros []|]).
    - pose proof (dsum_le _ count Hle). rewrite Lc in H. lia.
    - cbn [bf_loop]. destruct (b0_v _ _ H0 u (or_introl eq_refl)) as [Vu Fu].
      pose proof (Hc u Vu) as Hk. apply dget_key in Hk. destruct Hk as [k Ek]. assert (Ek' : dgetM count u = Ret k) by (unfold dgetM; rewrite Ek; reflexivity). rewrite Ek'. cbn [bind].
      destruct (Z.leb_spec (Z.of_nat (length g) + 1) (k + 1)) as [Hk|Hk]; [left; reflexivity|].
      destruct (adj_row g Hg u Vu) as (row & Er & Nr & _). assert (Ea : g_adj g u = Ret row) by (unfold g_adj, dgetM; rewrite Er; reflexivity). rewrite Ea. cbn [bind].
      destruct (bf_relax_ok u row cost prev stack Er Nr) as (cost' & prev' & stack' & E & HB & Hr); auto.
      + destruct H0 as [A B C D]. constructor; auto. intros v Hv. apply D. right. exact Hv.
      + intros x Hxu Hx. apply Hrel. intros [<-|Hin]; tauto.
      + rewrite E. cbn [bind]. apply IH; auto.
        * apply dset_NoDup. exact Nc.
        * intros v Hv. apply dkeys_dset_In. auto.
        * rewrite (dset_length _ _ _ _ Ek). exact Lc.
        * intros v k' Hin. assert (E' : dget (dset count u (k + 1)) v = Some k') by (apply dget_In; [apply dset_NoDup; exact Nc|exact Hin]).
          rewrite dget_dset in E'. destruct (u =? v); [injection E' as <-; lia|]. apply (Hle v). apply dget_Some_In. exact E'.
        * rewrite (dsum_dset _ _ _ _ Ek). lia.
  Qed.

  (** a closed cost function bounds all walks *)
  Lemma closed_walk cost u du : closed cost -> getD cost u = Some du -> forall v W, wwalk g u v W ->
    exists dv, getD cost v = Some dv /\ dv <= du + W.
  Proof.
    intros HC Eu v W HW. induction HW as [|a b W c _ IH Hc]; [exists du; split; [exact Eu|lia]|].
    destruct IH as (da & Ea & Ha). destruct (HC a b c Hc da Ea) as (db & Eb & Hb). exists db. split; [exact Eb|lia].
  Qed.

  Lemma closed_exact cost : B0 cost [] -> closed cost -> exact_distances g s cost /\ ~ negative_cycle g s /\ getD cost s = Some 0.
  Proof.
    intros [HK HW (ds & Es & Hds) _] HC.
    assert (HN : ~ negative_cycle g s).
    { intros (v & W & C & H1 & H2 & H3). destruct (closed_walk cost s ds HC Es v W H1) as (dv & Ev & _).
      destruct (closed_walk cost v dv HC Ev v C H2) as (dv' & Ev' & Hv'). rewrite Ev in Ev'. injection Ev' as <-. lia. }
    assert (E0 : ds = 0).
    { destruct (Z_lt_le_dec ds 0) as [Hlt|]; [|lia]. destruct HN. exists s, 0, ds. split; [constructor|]. split; [apply HW; exact Es|exact Hlt]. }
    subst ds. split; [|split; [exact HN|exact Es]].
    intros v Hv. apply HK in Hv. apply dget_key in Hv. destruct Hv as [d E]. exists d. split; [exact E|].
    assert (E' : getD cost v = d) by (unfold getD; rewrite E; reflexivity). destruct d as [d|].
    - split; [apply HW; exact E'|]. intros W H. destruct (closed_walk cost s 0 HC Es v W H) as (d' & Ed & Hd). rewrite E' in Ed. injection Ed as <-. lia.
    - intros W H. destruct (closed_walk cost s 0 HC Es v W H) as (d' & Ed & Hd). congruence.
  Qed.

  Lemma all_keys_get {A} (x : A) v k : dget (all_keys g x) v = Some k -> k = x.
  Proof.
    unfold all_keys. generalize (dkeys g). induction l as [|u l IH]; cbn; [discriminate|]. destruct (u =? v); [congruence|exact IH].
  Qed.

  Lemma B0_start : B0 (dset (all_keys g None) s (Some 0)) [s].
  Proof.
    constructor.
    - apply keysok_init.
    - intros v d. rewrite getD_init. destruct (Z.eqb_spec s v) as [<-|]; [|discriminate]. intros E. injection E as <-. constructor.
    - exists 0. rewrite getD_init, Z.eqb_refl. split; [reflexivity|lia].
    - intros v [<-|[]]. split; [exact Hs|]. exists 0. rewrite getD_init, Z.eqb_refl. reflexivity.
  Qed.

  Lemma bellman_ford_any : bellman_ford g s = Raise ValueError \/
    exists cost prev, bellman_ford g s = Ret (cost, prev) /\ exact_distances g s cost /\ ~ negative_cycle g s.
  Proof.
    unfold bellman_ford. rewrite (dmem_vertex g s Hs).
    destruct (bf_loop_any (S (length g * length g)) (all_keys g 0) (dset (all_keys g None) s (Some 0)) (all_keys g None) [s])
      as [E|(cost & prev & E & HB & HC)].
    - apply B0_start.
    - unfold dkeys, all_keys. rewrite map_map, map_id. apply Hg.
    - intros v Hv. unfold dkeys, all_keys. rewrite map_map, map_id. exact Hv.
    - unfold all_keys, dkeys. rewrite !map_length. reflexivity.
    - intros v k Hin. unfold all_keys in Hin. apply in_map_iff in Hin. destruct Hin as (u & E & _). injection E as _ <-. lia.
    - assert (E : dsum (all_keys g 0) = 0).
      { unfold all_keys. generalize (dkeys g). induction l as [|u l IH]; [reflexivity|]. cbn [map dsum fold_right snd]. fold (dsum (map (fun u => (u, 0)) l)). lia. }
      rewrite E. lia.
    - intros x Hx v c _ du E. rewrite getD_init in E. destruct (Z.eqb_spec s x) as [->|]; [|discriminate]. destruct Hx. left. reflexivity.
    - left. exact E.
    - right. exists cost, prev. split; [exact E|]. destruct (closed_exact cost HB HC) as (A & B & _). auto.
  Qed.
End BF.
