(** * NamedUnionFind and memoisation *)
From Coq Require Import ZArith List Lia Bool.
From Verif Require Import Base Dict UF_Model UF_Spec UF_Proofs.
Import ListNotations.
Open Scope Z_scope.

Lemma nclimb_ok p n x r : chain (dget p) n x r -> forall f path, (n < f)%nat ->
  exists l, nuf_climb f p x path = Ret (r, path ++ l) /\
    (forall v, In v l -> v <> r /\ exists m, chain (dget p) m v r).
Proof.
  induction 1 as [x H|n x y r H C IH]; intros f path L; (destruct f as [|f]; [lia|]); cbn [nuf_climb]; unfold dgetM.
  - rewrite H. cbn [bind]. exists []. rewrite app_nil_r. split; [reflexivity|]. intros ? [].
  - assert (Cx : chain (dget p) (S n) x r) by (econstructor; eauto).
    rewrite H. cbn [bind]. destruct (IH f (path ++ [x])) as (l & E1 & E3); [lia|].
    exists (x :: l). rewrite E1. split; [rewrite <- app_assoc; reflexivity|].
    intros v [<-|Hv]; [|auto]. split; [|eauto]. intros ->.
    pose proof (chain_root _ _ _ _ C) as R. inversion Cx; congruence.
Qed.

Lemma ncompress_ok r l : forall p, (forall v, In v l -> v <> r /\ exists m, chain (dget p) m v r) ->
  let p' := fold_left (fun d v => dset d v (Some r)) l p in
  (forall m z s, chain (dget p) m z s -> exists m', chain (dget p') m' z s) /\
  dkeys p' = dkeys p.
Proof.
  induction l as [|v l IH]; intros p H; cbn [fold_left].
  - split; [eauto|reflexivity].
  - destruct (H v (or_introl eq_refl)) as (Hv & n & Cv).
    assert (Step : forall m z s, chain (dget p) m z s -> exists m', chain (dget (dset p v (Some r))) m' z s).
    { apply (chain_compress (dget p) (dget (dset p v (Some r))) n v r Cv Hv). intros z. apply dget_dset. }
    destruct (IH (dset p v (Some r))) as (A & B).
    { intros w Hw. destruct (H w (or_intror Hw)) as (Hw' & m & Cw). split; [exact Hw'|]. eauto. }
    split.
    + intros m z s C. destruct (Step m z s C) as (m' & C'). eauto.
    + rewrite B, dkeys_dset. assert (X : dmem p v = true).
      { unfold dmem. destruct Cv as [x E1|? x ? ? E1 _]; rewrite E1; reflexivity. }
      rewrite X. reflexivity.
Qed.

Definition ninv (K : list Z) (s : nuf) (cls : Z -> Z) : Prop :=
  (forall x, In x (dkeys (nfather s)) <-> In x K) /\
  (forall x, In x K -> exists n r, chain (dget (nfather s)) n x r /\ dget (nname s) r = Some (cls x) /\
     dget (nroot s) (cls x) = Some r /\ dget (ncount s) r <> None).

Lemma ninv_init K : ninv K (nuf_init K) (fun x => x).
Proof.
  unfold nuf_init. split; cbn [ncount nname nfather nroot].
  - intros x. rewrite dget_key. rewrite (fold_dset_get (fun u => None)).
    destruct (in_dec Z.eq_dec x K); split; intros H; eauto; [destruct H; discriminate|tauto].
  - intros x Hx. exists O, x.
    rewrite (fold_dset_get (fun _ => 1)), !(fold_dset_get (fun u => u)).
    destruct (in_dec Z.eq_dec x K) eqn:E; [|contradiction]. split; [|repeat split; auto; discriminate].
    constructor. rewrite (fold_dset_get (fun u => None)), E. reflexivity.
Qed.

Lemma nfind_ok K s cls x : ninv K s cls -> In x K ->
  exists s', nuf_find s x = Ret (cls x, s') /\ ninv K s' cls.
Proof.
  intros (H1 & H2) Hx. destruct (H2 x Hx) as (n & r & C & Nr & _).
  assert (Bd : (n < length (nfather s))%nat).
  { pose proof (chain_bound (dget (nfather s)) (dkeys (nfather s)) n x r) as B.
    unfold dkeys in B. rewrite map_length in B. apply B; [|exact C].
    intros y Hy. apply dget_key. destruct (dget (nfather s) y); [eauto|congruence]. }
  unfold nuf_find. destruct (nclimb_ok _ _ _ _ C (S (length (nfather s))) []) as (l & E1 & E3); [lia|].
  rewrite E1. cbn [bind app]. unfold dgetM. rewrite Nr. cbn [bind]. eexists. split; [reflexivity|].
  destruct (ncompress_ok r l (nfather s) E3) as (A & B).
  split; cbn [ncount nname nfather nroot].
  - intros z. rewrite B. apply H1.
  - intros z Hz. destruct (H2 z Hz) as (m & r' & Cz & Rest). destruct (A _ _ _ Cz) as (m' & Cz'). eauto.
Qed.

Lemma nunion_ok K s cls u v w : ninv K s cls -> u <> v -> is_name K cls u -> is_name K cls v ->
  w = u \/ w = v \/ ~ is_name K cls w ->
  exists s', nuf_union s u v w = Ret s' /\ ninv K s' (njoin cls u v w).
Proof.
  intros (H1 & H2) Huv (xu & Ku & <-) (xv & Kv & <-) Hw.
  destruct (H2 xu Ku) as (nu & ru & Cu & Nu & Ru & Tu).
  destruct (H2 xv Kv) as (nv & rv & Cv & Nv & Rv & Tv).
  assert (Hr : ru <> rv) by congruence.
  destruct (dget (ncount s) ru) as [cu|] eqn:Ecu; [|congruence].
  destruct (dget (ncount s) rv) as [cv|] eqn:Ecv; [|congruence].
  (* the two choices of which root survives are symmetric *)
  assert (G : forall a b ca cb, (a = ru /\ b = rv) \/ (a = rv /\ b = ru) ->
    ninv K (NUF (dset (ncount s) b (ca + cb)) (dset (nname s) b w) (dset (nfather s) a (Some b)) (dset (nroot s) w b))
      (njoin cls (cls xu) (cls xv) w)).
  { intros a b ca cb Hab.
    assert (Ra : dget (nfather s) a = Some None).
    { destruct Hab as [[-> ->]|[-> ->]]; [eapply chain_root, Cu|eapply chain_root, Cv]. }
    assert (Rb : dget (nfather s) b = Some None).
    { destruct Hab as [[-> ->]|[-> ->]]; [eapply chain_root, Cv|eapply chain_root, Cu]. }
    assert (Hne : a <> b) by (destruct Hab as [[-> ->]|[-> ->]]; congruence).
    split; cbn [ncount nname nfather nroot].
    - intros z. rewrite dkeys_dset_In, H1. split; [|auto]. intros [H|H]; [auto|subst]. apply H1, dget_key. eauto.
    - intros z Hz. destruct (H2 z Hz) as (m & r & C & Nr & Rr & Tr).
      destruct (chain_link (dget (nfather s)) (dget (dset (nfather s) a (Some b))) a b Rb Hne (fun t => dget_dset _ _ _ t) m z r C Ra) as (m' & C').
      exists m', (if r =? a then b else r). split; [exact C'|]. unfold njoin.
      assert (Hin : (cls z =? cls xu) || (cls z =? cls xv) = true <-> r = a \/ r = b).
      { rewrite orb_true_iff, !Z.eqb_eq. split.
        - intros [E|E]; rewrite E in Rr; destruct Hab as [[-> ->]|[-> ->]]; [left|right|right|left]; congruence.
        - intros E. assert (E' : r = ru \/ r = rv) by (destruct Hab as [[-> ->]|[-> ->]]; tauto).
          destruct E' as [-> | ->]; [left|right]; congruence. }
      destruct ((cls z =? cls xu) || (cls z =? cls xv)) eqn:Eb.
      + assert (Er : (if r =? a then b else r) = b).
        { destruct (Z.eqb_spec r a); [reflexivity|]. destruct (proj1 Hin eq_refl); congruence. }
        rewrite Er. rewrite !dget_dset, !Z.eqb_refl. repeat split; discriminate.
      + assert (Er : r <> a /\ r <> b) by (split; intros ->; assert (false = true) by (apply Hin; auto); discriminate).
        destruct Er as [Ea Eb']. destruct (Z.eqb_spec r a); [congruence|].
        rewrite !dget_dset. destruct (Z.eqb_spec b r); [congruence|].
        split; [exact Nr|]. split; [|exact Tr].
        destruct (Z.eqb_spec w (cls z)); [|exact Rr]. exfalso. apply orb_false_iff in Eb. rewrite !Z.eqb_neq in Eb.
        destruct Hw as [->|[->|Hw]]; [destruct Eb; congruence|destruct Eb; congruence|].
        apply Hw. exists z. auto. }
  unfold nuf_union, dgetM. rewrite Ru. cbn [bind]. rewrite Ecu. cbn [bind]. rewrite Rv. cbn [bind]. rewrite Ecv. cbn [bind].
  destruct (cu >? cv).
  - rewrite Ru. cbn [bind]. rewrite Rv. cbn [bind]. rewrite Ecu. cbn [bind]. rewrite Ecv. cbn [bind].
    eexists. split; [reflexivity|]. apply G. auto.
  - rewrite Rv. cbn [bind]. rewrite Ru. cbn [bind]. rewrite Ecv. cbn [bind]. rewrite Ecu. cbn [bind].
    eexists. split; [reflexivity|]. apply G. auto.
Qed.

Lemma nuf_run_ok K ops : forall s cls, ninv K s cls -> nuf_allowed K cls ops ->
  exists s', nuf_run s ops = Ret (nuf_answers cls ops, s').
Proof.
  induction ops as [|[x|u v w] ops IH]; intros s cls H A; cbn [nuf_run nuf_answers nuf_allowed] in *.
  - eauto.
  - destruct A as [A1 A2]. destruct (nfind_ok K s cls x H A1) as (s1 & -> & H1). cbn [bind].
    destruct (IH s1 cls H1 A2) as (s' & ->). cbn [bind]. eauto.
  - destruct A as (A1 & A2 & A3 & A4 & A5). destruct (nunion_ok K s cls u v w H A1 A2 A3 A4) as (s1 & -> & H1). cbn [bind].
    eauto.
Qed.

(** ** Memoisation *)
Section Cached.
  Context {A B : Type} (eqb : A -> A -> bool) (func : A -> outcome B)
    (Heqb : forall x y, eqb x y = true <-> x = y).

  Definition cinv (cache : list (A * B)) : Prop :=
    forall a b, lookup eqb cache a = Some b -> func a = Ret b.

  Lemma wrap_run_ok calls : forall cache, cinv cache ->
    fst (wrap_run eqb func cache calls) = map func calls /\
    (forall a, (exists b, lookup eqb cache a = Some b) -> ~ In a (snd (wrap_run eqb func cache calls))) /\
    NoDup (filter (fun a => is_ret (func a)) (snd (wrap_run eqb func cache calls))) /\
    (forall a, In a (snd (wrap_run eqb func cache calls)) -> In a calls).
  Proof.
    induction calls as [|a calls IH]; intros cache H; cbn [wrap_run].
    - cbn. split; [reflexivity|]. split; [auto|]. split; [constructor|auto].
    - unfold wrap. destruct (lookup eqb cache a) as [b|] eqn:E.
      + destruct (IH cache H) as (I1 & I2 & I3 & I4). destruct (wrap_run eqb func cache calls) as [rs us]. cbn [fst snd map app] in *.
        split; [rewrite I1, (H a b E); reflexivity|]. split; [exact I2|]. split; [exact I3|]. intros x Hx. right; auto.
      + destruct (func a) as [b|e|] eqn:Ef.
        * assert (H' : cinv ((a, b) :: cache)).
          { intros x y. cbn [lookup]. destruct (eqb a x) eqn:Ex; [|apply H]. intros [= <-]. apply Heqb in Ex. congruence. }
          destruct (IH _ H') as (I1 & I2 & I3 & I4). destruct (wrap_run eqb func ((a, b) :: cache) calls) as [rs us]. cbn [fst snd map app] in *.
          assert (Na : ~ In a us).
          { apply I2. exists b. cbn [lookup]. rewrite (proj2 (Heqb a a) eq_refl). reflexivity. }
          split; [rewrite I1, Ef; reflexivity|]. split; [|split].
          -- intros x (y & Hy) [->|Hx]; [congruence|]. revert Hx. apply I2. cbn [lookup].
             destruct (eqb a x); eauto.
          -- cbn [filter]. rewrite Ef. cbn [is_ret]. constructor; [|exact I3]. rewrite filter_In. tauto.
          -- intros x [->|Hx]; [left; reflexivity|right; auto].
        * destruct (IH cache H) as (I1 & I2 & I3 & I4). destruct (wrap_run eqb func cache calls) as [rs us]. cbn [fst snd map app] in *.
          split; [rewrite I1, Ef; reflexivity|]. split; [|split].
          -- intros x (y & Hy) [->|Hx]; [congruence|]. revert Hx. apply I2. eauto.
          -- cbn [filter]. rewrite Ef. cbn [is_ret]. exact I3.
          -- intros x [->|Hx]; [left; reflexivity|right; auto].
        * destruct (IH cache H) as (I1 & I2 & I3 & I4). destruct (wrap_run eqb func cache calls) as [rs us]. cbn [fst snd map app] in *.
          split; [rewrite I1, Ef; reflexivity|]. split; [|split].
          -- intros x (y & Hy) [->|Hx]; [congruence|]. revert Hx. apply I2. eauto.
          -- cbn [filter]. rewrite Ef. cbn [is_ret]. exact I3.
          -- intros x [->|Hx]; [left; reflexivity|right; auto].
  Qed.
End Cached.
