(** * Pairing heap: the refinement theorem *)
From Coq Require Import ZArith List Lia Bool Permutation.
From Verif Require Import Base Lists2 Dict Pairing_Model Pairing_Spec Pairing_Proofs Pairing_Proofs2.
Import ListNotations.
Open Scope Z_scope.

Definition c_id (c : Z * Z * Z) := fst (fst c).
Definition c_key (c : Z * Z * Z) := snd (fst c).
Definition c_val (c : Z * Z * Z) := snd c.

(** Dictionary lemmas on dictionaries given by a list of triples. *)
Lemma dset_new {V} (d : list (Z * V)) k v : dget d k = None -> dset d k v = d ++ [(k, v)].
Proof.
  induction d as [|[a w] d IH]; cbn [dget dset app]; [reflexivity|].
  destruct (a =? k); [discriminate|]. intros H. rewrite IH by exact H. reflexivity.
Qed.

Lemma dset_map {V} (f g : Z * Z * Z -> V) C v x : NoDup (map c_val C) ->
  (forall c, In c C -> g c = if c_val c =? v then x else f c) -> In v (map c_val C) ->
  dset (map (fun c => (c_val c, f c)) C) v x = map (fun c => (c_val c, g c)) C.
Proof.
  induction C as [|c C IH]; intros N H Hin; [destruct Hin|]. cbn [map dset] in *.
  inversion N as [|? ? N1 N2]; subst. rewrite (H c) by (left; reflexivity).
  destruct (Z.eqb_spec (c_val c) v).
  - subst. f_equal. apply map_ext_in. intros c' Hc'. rewrite (H c') by (right; exact Hc').
    destruct (Z.eqb_spec (c_val c') (c_val c)) as [e|e]; [|reflexivity].
    exfalso. apply N1. rewrite <- e. apply in_map, Hc'.
  - destruct Hin as [Hin|Hin]; [congruence|]. f_equal. apply IH; auto. intros; apply H; right; auto.
Qed.

Lemma ddel_map {V} (f : Z * Z * Z -> V) C v : NoDup (map c_val C) ->
  ddel (map (fun c => (c_val c, f c)) C) v =
  map (fun c => (c_val c, f c)) (filter (fun c => negb (c_val c =? v)) C).
Proof.
  induction C as [|c C IH]; intros N; [reflexivity|]. cbn [map ddel filter] in *.
  inversion N as [|? ? N1 N2]; subst. destruct (Z.eqb_spec (c_val c) v); cbn [negb map].
  - subst. f_equal. assert (G : forall C', ~ In (c_val c) (map c_val C') ->
      filter (fun c0 => negb (c_val c0 =? c_val c)) C' = C').
    { induction C' as [|c' C' IH']; intros H; [reflexivity|]. cbn [map filter In] in *.
      destruct (Z.eqb_spec (c_val c') (c_val c)); [exfalso; tauto|]. cbn [negb]. rewrite IH' by tauto. reflexivity. }
    rewrite G by exact N1. reflexivity.
  - rewrite IH by exact N2. reflexivity.
Qed.

Lemma dget_map {V} (f : Z * Z * Z -> V) C v y : NoDup (map c_val C) ->
  dget (map (fun c => (c_val c, f c)) C) v = Some y <-> exists c, In c C /\ c_val c = v /\ f c = y.
Proof.
  intros N. split.
  - intros H. apply dget_Some_In in H. apply in_map_iff in H. destruct H as (c & E & Hc). injection E as <- <-. eauto.
  - intros (c & Hc & <- & <-). apply dget_In.
    + unfold dkeys. rewrite map_map. cbn [fst]. exact N.
    + apply in_map_iff. eauto.
Qed.

Lemma dget_map_None {V} (f : Z * Z * Z -> V) C v :
  dget (map (fun c => (c_val c, f c)) C) v = None <-> ~ In v (map c_val C).
Proof. rewrite dget_None. unfold dkeys. rewrite map_map. cbn [fst]. reflexivity. Qed.

Definition inv (h : pheap) (q : list (Z * Z)) : Prop :=
  exists C, plookup h = map (fun c => (c_val c, c_id c)) C /\
    q = map (fun c => (c_val c, c_key c)) C /\
    NoDup (map c_val C) /\ 0 <= pfresh h /\ (forall c, In c C -> 0 <= c_id c < pfresh h) /\
    match proot h with
    | None => C = []
    | Some r => exists a, tid a = r /\ forest (pst h) [a] /\ Permutation C (tcont a)
    end.

Lemma inv_empty : inv ph_empty [].
Proof. exists []. cbn. split; [reflexivity|]. split; [reflexivity|]. split; [constructor|]. split; [lia|]. split; [intros ? []|reflexivity]. Qed.

Lemma forest1 st a : forest st [a] <-> rrep st a /\ NoDup (tids a) /\ tord a.
Proof.
  unfold forest. cbn [flat_map]. rewrite app_nil_r. split.
  - intros (H1 & H2 & H3). inversion H1; inversion H3; auto.
  - intros (H1 & H2 & H3). auto.
Qed.

Lemma insert_ok h q k v : inv h q -> dget q v = None ->
  exists h', ph_insert h k v = Ret h' /\ inv h' (dset q v k).
Proof.
  intros (C & EL & EQ & ND & F0 & F & R) Hv. subst q. pose proof Hv as Hv'. rewrite dget_map_None in Hv'.
  unfold ph_insert. rewrite (dset_new (map (fun c => (c_val c, c_key c)) C)) by exact Hv.
  assert (EL' : dset (plookup h) v (pfresh h) = map (fun c => (c_val c, c_id c)) (C ++ [(pfresh h, k, v)])).
  { rewrite EL, dset_new by (apply dget_map_None; exact Hv'). rewrite map_app. reflexivity. }
  assert (EQ' : map (fun c => (c_val c, c_key c)) C ++ [(v, k)] = map (fun c => (c_val c, c_key c)) (C ++ [(pfresh h, k, v)])).
  { rewrite map_app. reflexivity. }
  assert (ND' : NoDup (map c_val (C ++ [(pfresh h, k, v)]))).
  { rewrite map_app. apply NoDup_app_intro; [exact ND|repeat constructor; intros []|].
    intros x Hx [<-|[]]. tauto. }
  assert (F' : forall c, In c (C ++ [(pfresh h, k, v)]) -> 0 <= c_id c < pfresh h + 1).
  { intros c [Hc|[<-|[]]]%in_app_or; [specialize (F c Hc)|cbn]; lia. }
  set (nd := PNode k v None None None). set (st := supd (pst h) (pfresh h) nd).
  assert (Rn : rrep st (Tr (pfresh h) k v E)).
  { exists nd. unfold st. cbn [tid tkey tval tkids]. rewrite supd_same. cbn. auto. }
  destruct (proot h) as [r|].
  - destruct R as (a & Ea & Fa & P). rewrite forest1 in Fa. destruct Fa as (Ra & Na & Oa).
    assert (Hfr : ~ In (pfresh h) (tids a)).
    { rewrite <- tcont_tids. intros X. apply in_map_iff in X. destruct X as (c & E1 & Hc).
      assert (Hc' : In c C) by (eapply Permutation_in; [symmetry; exact P|exact Hc]).
      specialize (F c Hc'). unfold c_id in F. rewrite E1 in F. lia. }
    destruct (forest_link st a (Tr (pfresh h) k v E) []) as (st' & E1 & F1 & _).
    { split; [|split].
      - constructor; [|constructor; [exact Rn|constructor]]. apply (rrep_frame (pst h)); [exact Ra|].
        intros j Hj. unfold st. apply supd_other. intros ->. tauto.
      - cbn [flat_map]. rewrite app_nil_r. apply NoDup_app_intro; [exact Na|repeat constructor; intros []|].
        intros x Hx [<-|[]]. tauto.
      - constructor; [exact Oa|]. constructor; [exact I|constructor]. }
    cbn [tid] in E1. rewrite <- Ea, E1. cbn [bind]. eexists. split; [reflexivity|].
    exists (C ++ [(pfresh h, k, v)]). cbn [plookup pfresh proot pst].
    split; [exact EL'|]. split; [exact EQ'|]. split; [exact ND'|]. split; [lia|]. split; [exact F'|].
    eexists. split; [reflexivity|]. split; [exact F1|]. rewrite lnk_cont, P. reflexivity.
  - subst C. eexists. split; [reflexivity|]. exists [(pfresh h, k, v)]. cbn [plookup pfresh proot pst].
    split; [exact EL'|]. split; [exact EQ'|]. split; [exact ND'|]. split; [lia|]. split; [exact F'|].
    exists (Tr (pfresh h) k v E). split; [reflexivity|]. split; [|reflexivity].
    apply forest1. split; [exact Rn|]. split; [repeat constructor; intros []|exact I].
Qed.

Lemma ord_all b t c : ord b t -> In c (cont t) -> b <= c_key c.
Proof.
  revert b. induction t as [|i k v l IHl r IHr]; cbn [ord cont]; intros b O Hc; [destruct Hc|].
  destruct O as (O1 & O2 & O3). destruct Hc as [<-|Hc]; [exact O1|]. apply in_app_or in Hc.
  destruct Hc as [Hc|Hc]; [|auto]. specialize (IHl k O2 Hc). lia.
Qed.

Lemma NoDup_bound (l : list Z) n : NoDup l -> (forall x, In x l -> 0 <= x < n) -> (length l <= Z.to_nat n)%nat.
Proof.
  intros H1 H2. replace (Z.to_nat n) with (length (zrange 0 n)) by (rewrite zrange_length; f_equal; lia).
  apply NoDup_incl_length; [exact H1|]. intros x Hx. apply zrange_In. auto.
Qed.

Lemma perm_split (C D : list (Z * Z * Z)) c v : Permutation C (c :: D) -> NoDup (map c_val C) -> c_val c = v ->
  Permutation (filter (fun c => negb (c_val c =? v)) C) D.
Proof.
  intros P N E1. assert (G : Permutation (filter (fun c => negb (c_val c =? v)) C)
                       (filter (fun c => negb (c_val c =? v)) (c :: D))).
  { clear - P. induction P; cbn [filter].
    - reflexivity.
    - destruct (negb _); [constructor|]; assumption.
    - destruct (negb (c_val y =? v)), (negb (c_val x =? v)); try reflexivity. constructor.
    - etransitivity; eassumption. }
  rewrite G. cbn [filter]. rewrite E1, Z.eqb_refl. cbn [negb].
  assert (N' : NoDup (map c_val (c :: D))) by (eapply Permutation_NoDup; [apply Permutation_map, P|exact N]).
  cbn [map] in N'. inversion N' as [|? ? N1 N2]; subst.
  assert (Z : forall D', ~ In (c_val c) (map c_val D') -> filter (fun c0 => negb (c_val c0 =? c_val c)) D' = D').
  { induction D' as [|d D' IH]; intros H; [reflexivity|]. cbn [map filter In] in *.
    destruct (Z.eqb_spec (c_val d) (c_val c)); [exfalso; tauto|]. cbn [negb]. rewrite IH by tauto. reflexivity. }
  rewrite Z by exact N1. reflexivity.
Qed.

Lemma NoDup_filter_map {A} (f : A -> Z) p l : NoDup (map f l) -> NoDup (map f (filter p l)).
Proof.
  induction l as [|a l IH]; cbn [map filter]; intros N; [constructor|]. inversion N as [|? ? N1 N2]; subst.
  destruct (p a); [|auto]. cbn [map]. constructor; [|auto]. intros X. apply N1.
  apply in_map_iff in X. destruct X as (b & E1 & Hb). apply filter_In in Hb. apply in_map_iff. exists b. tauto.
Qed.

Lemma delete_ok h q : inv h q ->
  (q = [] /\ ph_delete_min h = Ret (None, h)) \/
  exists h' k v, ph_delete_min h = Ret (Some (k, v), h') /\ dget q v = Some k /\
    (forall v' k', dget q v' = Some k' -> k <= k') /\ inv h' (ddel q v).
Proof.
  intros (C & EL & EQ & ND & F0 & F & R). unfold ph_delete_min. destruct (proot h) as [r|].
  2: { left. subst. auto. }
  right. destruct R as (a & Ea & Fa & P). rewrite forest1 in Fa. destruct Fa as (Ra & Na & Oa).
  subst r q. destruct Ra as (nd & A1 & A2 & A3 & A4 & A5). cbn [deref]. rewrite A1. cbn [bind].
  assert (Hc : In (tid a, tkey a, tval a) C) by (eapply Permutation_in; [symmetry; exact P|left; reflexivity]).
  assert (Hmin : forall v' k', dget (map (fun c => (c_val c, c_key c)) C) v' = Some k' -> tkey a <= k').
  { intros v' k' H. apply dget_map in H; [|exact ND]. destruct H as (c & Hc' & _ & <-).
    eapply Permutation_in in Hc'; [|exact P]. destruct Hc' as [<-|Hc']; [cbn; lia|]. eapply ord_all; eauto. }
  assert (Hget : dget (map (fun c => (c_val c, c_key c)) C) (tval a) = Some (tkey a)).
  { apply dget_map; [exact ND|]. eexists. split; [exact Hc|]. auto. }
  assert (Hlk : dgetM (plookup h) (tval a) = Ret (tid a)).
  { unfold dgetM. rewrite EL. assert (X : dget (map (fun c => (c_val c, c_id c)) C) (tval a) = Some (tid a)).
    { apply dget_map; [exact ND|]. eexists. split; [exact Hc|]. auto. }
    rewrite X. reflexivity. }
  assert (G : exists st' r' nd', match pleft nd with
      | None => Ret (pst h, None)
      | Some _ => combine_siblings (Z.to_nat (pfresh h)) (pst h) (pleft nd)
      end = Ret (st', r') /\ st' (tid a) = Some nd' /\ pkey nd' = tkey a /\ pval nd' = tval a /\
      match r' with None => cont (tkids a) = [] | Some i => exists c, tid c = i /\ forest st' [c] /\ Permutation (tcont c) (cont (tkids a)) end).
  { pose proof (rep_ptr _ _ _ _ A5) as Ex. destruct (tkids a) as [|i k v l r] eqn:Ek.
    - rewrite Ex. exists (pst h), None, nd. auto.
    - rewrite Ex in *. rewrite <- Ek in *.
      destruct (combine_ok (Z.to_nat (pfresh h)) (pst h) (tid a) (Some i) nd (tkids a) (tkey a)) as (st' & c & nd' & E1 & F1 & P1 & Q1 & Q2 & Q3).
      + exact A1.
      + exact A5.
      + rewrite Ek. discriminate.
      + exact Oa.
      + exact Na.
      + apply NoDup_bound; [inversion Na; assumption|]. intros x Hx. rewrite <- cont_ids in Hx.
        apply in_map_iff in Hx. destruct Hx as (c & <- & Hx). apply (F c).
        eapply Permutation_in; [symmetry; exact P|]. right. exact Hx.
      + exists st', (Some (tid c)), nd'. rewrite E1. split; [reflexivity|]. split; [exact Q1|].
        split; [congruence|]. split; [congruence|]. exists c. auto. }
  destruct G as (st' & r' & nd' & E1 & E2 & E3 & E4 & E5). rewrite E1. cbn [bind]. rewrite E2. cbn [bind].
  rewrite E3, E4, Hlk. cbn [bind]. eexists _, (tkey a), (tval a). split; [reflexivity|].
  split; [exact Hget|]. split; [exact Hmin|].
  assert (P' : Permutation (filter (fun c => negb (c_val c =? tval a)) C) (cont (tkids a))).
  { eapply perm_split; [exact P|exact ND|reflexivity]. }
  exists (filter (fun c => negb (c_val c =? tval a)) C). cbn [plookup pfresh proot pst].
  rewrite EL, !ddel_map by exact ND. split; [reflexivity|]. split; [reflexivity|].
  split; [apply NoDup_filter_map, ND|]. split; [exact F0|].
  split; [intros c Hc'; apply filter_In in Hc'; apply F; tauto|].
  destruct r' as [i|].
  - destruct E5 as (c & <- & F1 & P1). exists c. split; [reflexivity|]. split; [exact F1|]. rewrite P', P1. reflexivity.
  - rewrite E5 in P'. apply Permutation_sym, Permutation_nil in P'. exact P'.
Qed.

Definition chg (n key : Z) (c : Z * Z * Z) : Z * Z * Z :=
  if c_id c =? n then (c_id c, key, c_val c) else c.

Lemma chg_val n key c : c_val (chg n key c) = c_val c.
Proof. unfold chg. destruct (_ =? _); reflexivity. Qed.
Lemma chg_id n key c : c_id (chg n key c) = c_id c.
Proof. unfold chg. destruct (_ =? _); reflexivity. Qed.

Lemma cont_out n t key : ~ In n (ids t) -> map (chg n key) (cont t) = cont t.
Proof.
  intros H. rewrite <- (map_id (cont t)) at 2. apply map_ext_in. intros c Hc. unfold chg.
  destruct (Z.eqb_spec (c_id c) n); [|reflexivity]. exfalso. apply H. rewrite <- cont_ids. subst. apply (in_map c_id), Hc.
Qed.

Lemma decrease_ok h q v k k0 : inv h q -> dget q v = Some k0 -> k <= k0 ->
  exists h', ph_decrease_key h v k = Ret h' /\ inv h' (dset q v k).
Proof.
  intros (C & EL & EQ & ND & F0 & F & R) Hv Hk. subst q.
  apply dget_map in Hv; [|exact ND]. destruct Hv as (c & Hc & Ec & Ek).
  destruct c as [[n k1] v1]. cbn in Ec, Ek. subst v1 k1.
  assert (Hlk : dgetM (plookup h) v = Ret n).
  { unfold dgetM. rewrite EL. assert (X : dget (map (fun c => (c_val c, c_id c)) C) v = Some n).
    { apply dget_map; [exact ND|]. eexists. split; [exact Hc|]. auto. }
    rewrite X. reflexivity. }
  unfold ph_decrease_key. rewrite Hlk. cbn [bind].
  destruct (proot h) as [r|] eqn:Er; [|subst; destruct Hc].
  destruct R as (a & Ea & Fa & P). rewrite forest1 in Fa. destruct Fa as (Ra & Na & Oa). subst r.
  assert (Nid : NoDup (map c_id C)).
  { eapply Permutation_NoDup; [apply Permutation_map; symmetry; exact P|]. unfold c_id. rewrite tcont_tids. exact Na. }
  assert (Vid : forall c, In c C -> (c_val c =? v) = (c_id c =? n)).
  { intros c Hc'. destruct (Z.eqb_spec (c_val c) v), (Z.eqb_spec (c_id c) n); try reflexivity; exfalso.
    - assert (X : c = (n, k0, v)); [|subst c; cbn in *; lia].
      destruct (In_nth C c (0,0,0) Hc') as (i1 & L1 & N1). destruct (In_nth C _ (0,0,0) Hc) as (i2 & L2 & N2).
      assert (i1 = i2).
      { apply (proj1 (NoDup_nth (map c_val C) 0) ND); rewrite ?map_length; auto.
        change 0 with (c_val (0,0,0)). rewrite !map_nth, N1, N2. cbn. assumption. }
      congruence.
    - assert (X : c = (n, k0, v)); [|subst c; cbn in *; lia].
      destruct (In_nth C c (0,0,0) Hc') as (i1 & L1 & N1). destruct (In_nth C _ (0,0,0) Hc) as (i2 & L2 & N2).
      assert (i1 = i2).
      { apply (proj1 (NoDup_nth (map c_id C) 0) Nid); rewrite ?map_length; auto.
        change 0 with (c_id (0,0,0)). rewrite !map_nth, N1, N2. cbn. assumption. }
      congruence. }
  set (C' := map (chg n k) C).
  assert (EL' : plookup h = map (fun c => (c_val c, c_id c)) C').
  { rewrite EL. unfold C'. rewrite map_map. apply map_ext. intros c. rewrite chg_val, chg_id. reflexivity. }
  assert (EQ' : dset (map (fun c => (c_val c, c_key c)) C) v k = map (fun c => (c_val c, c_key c)) C').
  { unfold C'. rewrite map_map.
    rewrite (dset_map c_key (fun c => c_key (chg n k c)) C v k ND).
    - apply map_ext. intros c. rewrite chg_val. reflexivity.
    - intros c Hc'. rewrite (Vid c Hc'). unfold chg. destruct (c_id c =? n); reflexivity.
    - apply in_map_iff. eexists. split; [|exact Hc]. reflexivity. }
  assert (ND' : NoDup (map c_val C')).
  { unfold C'. rewrite map_map. erewrite map_ext; [exact ND|]. intros c. apply chg_val. }
  assert (F' : forall c, In c C' -> 0 <= c_id c < pfresh h).
  { intros c Hc'. apply in_map_iff in Hc'. destruct Hc' as (c0 & <- & Hc'). rewrite chg_id. auto. }
  destruct Ra as (nd & A1 & A2 & A3 & A4 & A5). cbn [modify].
  assert (Hca : In (n, k0, v) (tcont a)) by (eapply Permutation_in; [exact P|exact Hc]).
  destruct (Z.eqb_spec (tid a) n) as [En|En].
  - (* the root's key is decreased *)
    rewrite <- En in *. rewrite A1. cbn [bind]. eexists. split; [reflexivity|]. exists C'. cbn [plookup pfresh proot pst].
    split; [exact EL'|]. split; [exact EQ'|]. split; [exact ND'|]. split; [exact F0|]. split; [exact F'|].
    assert (Nt : ~ In (tid a) (ids (tkids a))) by (inversion Na; assumption).
    assert (K : k0 = tkey a /\ v = tval a).
    { destruct Hca as [Hca|Hca]; [injection Hca as -> ->; auto|]. exfalso. apply Nt. rewrite <- cont_ids.
      apply (in_map (fun c => fst (fst c))) in Hca. exact Hca. }
    destruct K as [K1 K2].
    exists (Tr (tid a) k (tval a) (tkids a)). split; [reflexivity|]. split.
    + apply forest1. split; [|split].
      * eexists. cbn [tid tkey tval tkids]. rewrite supd_same. split; [reflexivity|]. cbn.
        refine (conj eq_refl (conj A3 (conj A4 _))). apply (rep_frame (pst h)); [exact A5|].
        intros j Hj. apply supd_other. intros ->. tauto.
      * exact Na.
      * unfold tord. cbn. eapply ord_le; [|exact Oa]. lia.
    + unfold C'. rewrite <- En. rewrite P. unfold tcont. cbn [tid tkey tval tkids map]. rewrite cont_out by exact Nt.
      unfold chg at 1. unfold c_id at 1. cbn [fst snd c_id c_val]. rewrite Z.eqb_refl. reflexivity.
  - (* an inner node is cut off and linked with the root *)
    assert (Hin : In n (ids (tkids a))).
    { destruct Hca as [Hca|Hca]; [congruence|]. rewrite <- cont_ids. apply (in_map (fun c => fst (fst c))) in Hca. exact Hca. }
    assert (Hn : exists ndn, pst h n = Some ndn).
    { clear - A5 Hin. revert A5. generalize (pleft nd), (Some (tid a)). induction (tkids a) as [|i k v l IHl r IHr]; [destruct Hin|].
      intros x p (_ & nd' & H2 & _ & _ & _ & H6 & H7). cbn [ids] in Hin. destruct Hin as [->|Hin]; [eauto|].
      apply in_app_or in Hin. destruct Hin; eauto. }
    destruct Hn as (ndn & Hn). rewrite Hn. cbn [bind].
    set (st1 := supd (pst h) n (set_key k ndn)).
    assert (Q1 : st1 (tid a) = Some nd) by (unfold st1; rewrite supd_other by auto; exact A1).
    pose proof (rep_setk (pst h) n k ndn (tkids a) Hn _ _ A5) as R1. fold st1 in R1.
    destruct (cut_ok n (setk n k (tkids a)) st1 (tid a) (pleft nd) nd true Q1 eq_refl R1) as (st2 & x' & k1 & v1 & l1 & E2 & S2 & Q2 & R2 & RR & _).
    { rewrite setk_ids. exact Na. }
    { rewrite setk_ids. exact Hin. }
    rewrite E2. cbn [bind].
    assert (Nk : NoDup (ids (tkids a))) by (inversion Na; assumption).
    rewrite setk_rmv in R2 by auto.
    destruct (sub n (tkids a)) as [[[k2 v2] l2]|] eqn:S0.
    2: { exfalso. clear - S0 Hin. induction (tkids a) as [|i k v l IHl r IHr]; cbn [ids sub In] in *; [tauto|].
         destruct (Z.eqb_spec i n); [discriminate|]. destruct Hin as [X|X]; [congruence|]. apply in_app_or in X.
         destruct (sub n l); [discriminate|]. destruct X as [X|X]; auto. }
    rewrite (setk_sub n k _ _ _ _ Nk S0) in S2. injection S2 as <- <- <-.
    destruct (sub_props n (tkids a) (tkey a) k2 v2 l2 Oa Nk S0) as (O1 & O2 & PC).
    assert (K : k2 = k0 /\ v2 = v).
    { assert (X : In (n, k2, v2) C).
      { eapply Permutation_in; [symmetry; exact P|]. right. eapply Permutation_in; [symmetry; exact PC|]. left; reflexivity. }
      assert (Y := Vid _ X). cbn in Y. rewrite Z.eqb_refl in Y. apply Z.eqb_eq in Y. subst v2. split; [|reflexivity].
      destruct (In_nth C _ (0,0,0) X) as (i1 & L1 & N1). destruct (In_nth C _ (0,0,0) Hc) as (i2 & L2 & N2).
      assert (i1 = i2).
      { apply (proj1 (NoDup_nth (map c_id C) 0) Nid); rewrite ?map_length; auto.
        change 0 with (c_id (0,0,0)). rewrite !map_nth, N1, N2. reflexivity. }
      congruence. }
    destruct K as [-> ->].
    set (a1 := Tr (tid a) (tkey a) (tval a) (rmv n (tkids a))). set (b1 := Tr n k v l2) in *.
    assert (PI : Permutation (tids a1 ++ tids b1) (tids a)).
    { unfold tids. cbn [tid tkids a1 b1]. cbn [app]. constructor.
      rewrite <- (cont_ids (tkids a)). rewrite (Permutation_map _ PC). cbn [map fst].
      rewrite map_app, !cont_ids. rewrite Permutation_app_comm. reflexivity. }
    destruct (forest_link st2 a1 b1 []) as (st3 & E3 & F3 & _).
    { split; [|split].
      - constructor; [|constructor; [exact RR|constructor]]. eexists. cbn [tid tkey tval tkids a1]. split; [exact Q2|].
        cbn. auto.
      - cbn [flat_map]. rewrite app_nil_r. eapply Permutation_NoDup; [symmetry; exact PI|exact Na].
      - constructor; [exact O1|]. constructor; [|constructor]. unfold tord. cbn. eapply ord_le; [|exact O2]. lia. }
    cbn [tid a1 b1] in E3. rewrite E3. cbn [bind]. eexists. split; [reflexivity|]. exists C'. cbn [plookup pfresh proot pst].
    split; [exact EL'|]. split; [exact EQ'|]. split; [exact ND'|]. split; [exact F0|]. split; [exact F'|].
    eexists. split; [reflexivity|]. split; [exact F3|]. rewrite lnk_cont. unfold C'. rewrite P.
    unfold tcont. cbn [tid tkey tval tkids a1 b1 map]. unfold chg at 1. cbn [c_id fst].
    destruct (Z.eqb_spec (tid a) n); [congruence|]. cbn [app]. constructor.
    rewrite (Permutation_map _ PC). cbn [map]. rewrite map_app.
    assert (Nn : NoDup (n :: ids l2 ++ ids (rmv n (tkids a)))).
    { rewrite <- !cont_ids, <- map_app. change n with (fst (fst (n, k0, v))).
      change (NoDup (map (fun c => fst (fst c)) ((n, k0, v) :: cont l2 ++ cont (rmv n (tkids a))))).
      eapply Permutation_NoDup; [apply Permutation_map, PC|]. rewrite cont_ids. exact Nk. }
    inversion Nn as [|? ? N1 N2]; subst.
    rewrite !cont_out by (intros X; apply N1, in_or_app; auto).
    unfold chg. cbn [c_id c_val fst snd]. rewrite Z.eqb_refl.
    rewrite <- Permutation_middle. constructor. apply Permutation_app_comm.
Qed.

Lemma list_ok h q : inv h q -> ph_list_elements h = Ret (map (fun '(v, k) => (k, v)) q).
Proof.
  intros (C & EL & EQ & ND & F0 & F & R). unfold ph_list_elements. rewrite EL, EQ, map_map.
  assert (G : forall c, In c C -> exists nd, pst h (c_id c) = Some nd /\ pkey nd = c_key c).
  { intros c Hc. destruct (proot h) as [r|]; [|subst; destruct Hc].
    destruct R as (a & _ & Fa & P). rewrite forest1 in Fa. destruct Fa as ((nd & A1 & A2 & _ & _ & A5) & _).
    eapply Permutation_in in Hc; [|exact P]. destruct Hc as [<-|Hc]; [eauto|].
    clear - A5 Hc. revert A5. generalize (pleft nd), (Some (tid a)).
    induction (tkids a) as [|i k v l IHl r IHr]; [destruct Hc|].
    intros x p (_ & nd' & H2 & H3 & _ & _ & H6 & H7). cbn [cont] in Hc. destruct Hc as [<-|Hc]; [eauto|].
    apply in_app_or in Hc. destruct Hc; eauto. }
  clear - G. induction C as [|c C IH]; [reflexivity|]. cbn [map ph_list deref].
  destruct (G c (or_introl eq_refl)) as (nd & E1 & E2). rewrite E1. cbn [bind].
  rewrite IH by (intros; apply G; right; assumption). cbn [bind]. rewrite E2. reflexivity.
Qed.

Lemma step_ok h q o : inv h q -> allowed q o ->
  kpq q o (fst (ph_step h o)) (after q o (fst (ph_step h o))) /\
  inv (snd (ph_step h o)) (after q o (fst (ph_step h o))).
Proof.
  intros H A. destruct o as [k v|v k| |]; cbn [ph_step allowed] in *.
  - destruct (insert_ok h q k v H A) as (h' & -> & H'). cbn. split; [constructor; exact A|exact H'].
  - destruct (dget q v) as [k0|] eqn:Ev.
    + destruct (decrease_ok h q v k k0 H Ev A) as (h' & -> & H'). cbn. split; [econstructor; eauto|exact H'].
    + assert (X : ph_decrease_key h v k = Raise KeyError).
      { destruct H as (C & EL & EQ & _). unfold ph_decrease_key, dgetM.
        assert (Y : dget (plookup h) v = None); [|rewrite Y; reflexivity].
        rewrite EL. apply dget_map_None. subst q. apply dget_map_None in Ev. exact Ev. }
      rewrite X. cbn. split; [constructor; exact Ev|exact H].
  - destruct (delete_ok h q H) as [[-> ->]|(h' & k & v & -> & H1 & H2 & H3)]; cbn.
    + split; [constructor; reflexivity|exact H].
    + split; [constructor; assumption|exact H3].
  - rewrite (list_ok h q H). cbn. split; [constructor|exact H].
Qed.

Lemma run_ok ops : forall h q, inv h q -> allowed_run q h ops ->
  exists q', kpq_run q ops (fst (ph_run h ops)) q' /\ inv (snd (ph_run h ops)) q'.
Proof.
  induction ops as [|o ops IH]; intros h q H A.
  - exists q. split; [constructor|exact H].
  - destruct A as [A1 A2]. destruct (step_ok h q o H A1) as [S1 S2]. cbn [ph_run].
    destruct (ph_step h o) as [r h']. cbn [fst snd] in *.
    destruct (IH h' _ S2 A2) as (q' & R1 & R2). destruct (ph_run h' ops) as [rs h'']. cbn [fst snd] in *.
    exists q'. split; [econstructor; eauto|exact R2].
Qed.
