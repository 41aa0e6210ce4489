(** * Proofs about disjoint sets *)
From Coq Require Import ZArith List Lia Bool.
From Verif Require Import Base Dict UF_Model UF_Spec.
Import ListNotations.
Open Scope Z_scope.

(** ** Chains of father pointers.  [nx x]: [None] not an element, [Some None] a
    root, [Some (Some y)] the father. *)
Inductive chain (nx : Z -> option (option Z)) : nat -> Z -> Z -> Prop :=
| C0 x : nx x = Some None -> chain nx 0 x x
| CS n x y r : nx x = Some (Some y) -> chain nx n y r -> chain nx (S n) x r.

Lemma chain_det nx n x r : chain nx n x r -> forall n' r', chain nx n' x r' -> n = n' /\ r = r'.
Proof.
  induction 1 as [x H|n x y r H C IH]; intros n' r' C'; inversion C'; subst; try congruence.
  - auto.
  - rewrite H in H0. injection H0 as <-. destruct (IH _ _ H1) as [-> ->]. auto.
Qed.

Lemma chain_root nx n x r : chain nx n x r -> nx r = Some None.
Proof. induction 1; auto. Qed.

Lemma chain_nodes nx n x r : chain nx n x r -> exists l, length l = S n /\ NoDup l /\
  forall y, In y l -> nx y <> None /\ exists m, chain nx m y r /\ (m <= n)%nat.
Proof.
  induction 1 as [x H|n x y r H C (l & L1 & L2 & L3)].
  - exists [x]. split; [reflexivity|]. split; [repeat constructor; intros []|].
    intros y [<-|[]]. split; [congruence|]. exists O. split; [constructor; auto|lia].
  - exists (x :: l). split; [cbn; lia|]. assert (Cx : chain nx (S n) x r) by (econstructor; eauto). split.
    + constructor; [|exact L2]. intros X. destruct (L3 x X) as (_ & m & Cm & Hm).
      destruct (chain_det _ _ _ _ Cx _ _ Cm). lia.
    + intros z [<-|Hz].
      * split; [congruence|]. eauto.
      * destruct (L3 z Hz) as (A & m & B & D). split; [exact A|]. exists m. split; [exact B|lia].
Qed.

Lemma chain_bound nx K n x r : (forall y, nx y <> None -> In y K) -> chain nx n x r -> (n < length K)%nat.
Proof.
  intros HK C. destruct (chain_nodes _ _ _ _ C) as (l & L1 & L2 & L3).
  assert (length l <= length K)%nat; [|lia]. apply NoDup_incl_length; [exact L2|].
  intros y Hy. apply HK. destruct (L3 y Hy). assumption.
Qed.

(** Pointing a node straight at its root preserves all chains. *)
Lemma chain_compress nx nx' n v r : chain nx n v r -> v <> r ->
  (forall z, nx' z = if v =? z then Some (Some r) else nx z) ->
  forall m z s, chain nx m z s -> exists m', chain nx' m' z s.
Proof.
  intros Cv Hv E m z s C. assert (Rr : nx' r = Some None).
  { rewrite E. destruct (Z.eqb_spec v r); [congruence|]. eapply chain_root, Cv. }
  induction C as [z H|m z y s H C (m' & IH)].
  - exists O. constructor. rewrite E. destruct (Z.eqb_spec v z); [|exact H]. subst.
    inversion Cv; subst; congruence.
  - destruct (Z.eqb_spec v z) as [->|Hz].
    + assert (Cz : chain nx (S m) z s) by (econstructor; eauto).
      destruct (chain_det _ _ _ _ Cv _ _ Cz) as [_ <-]. exists 1%nat. econstructor; [rewrite E, Z.eqb_refl; reflexivity|].
      constructor. exact Rr.
    + exists (S m'). econstructor; [|exact IH]. rewrite E. destruct (Z.eqb_spec v z); [congruence|exact H].
Qed.

(** Linking root [a] below root [b]. *)
Lemma chain_link nx nx' a b : nx b = Some None -> a <> b ->
  (forall z, nx' z = if a =? z then Some (Some b) else nx z) ->
  forall m z s, chain nx m z s -> nx a = Some None -> exists m', chain nx' m' z (if s =? a then b else s).
Proof.
  intros Hb Hab E m z s C Ha. assert (Rb : nx' b = Some None).
  { rewrite E. destruct (Z.eqb_spec a b); [congruence|exact Hb]. }
  induction C as [z H|m z y s H C (m' & IH)].
  - destruct (Z.eqb_spec z a).
    + subst. exists 1%nat. econstructor; [rewrite E, Z.eqb_refl; reflexivity|]. constructor. exact Rb.
    + exists O. constructor. rewrite E. destruct (Z.eqb_spec a z); [congruence|exact H].
  - exists (S m'). econstructor; [|exact IH]. rewrite E. destruct (Z.eqb_spec a z); [|exact H]. subst. congruence.
Qed.

(** ** UnionFind *)
Definition unx (p : list (Z * Z)) (x : Z) : option (option Z) :=
  match dget p x with None => None | Some y => Some (if x =? y then None else Some y) end.

Lemma unx_dset p v r z : v <> r -> unx (dset p v r) z = if v =? z then Some (Some r) else unx p z.
Proof.
  intros H. unfold unx. rewrite dget_dset. destruct (Z.eqb_spec v z); [|reflexivity].
  subst. destruct (Z.eqb_spec z r); [congruence|reflexivity].
Qed.

Lemma climb_ok p n x r : chain (unx p) n x r -> forall f path, (n < f)%nat ->
  exists l, uf_climb f p x path = Ret (r, path ++ l) /\
    (x <> r -> In x l) /\ (forall v, In v l -> v <> r /\ exists m, chain (unx p) m v r).
Proof.
  induction 1 as [x H|n x y r H C IH]; intros f path L; (destruct f as [|f]; [lia|]); cbn [uf_climb].
  - unfold unx in H. unfold dgetM. destruct (dget p x) as [y|]; [|discriminate]. cbn [bind].
    destruct (Z.eqb_spec x y); [|discriminate]. exists []. rewrite app_nil_r. split; [reflexivity|].
    split; [congruence|intros ? []].
  - assert (Cx : chain (unx p) (S n) x r) by (econstructor; eauto).
    unfold unx in H. unfold dgetM. destruct (dget p x) as [y'|]; [|discriminate]. cbn [bind].
    destruct (Z.eqb_spec x y'); [discriminate|]. injection H as ->.
    destruct (IH f (path ++ [x])) as (l & E1 & E2 & E3); [lia|].
    exists (x :: l). rewrite E1. split; [rewrite <- app_assoc; reflexivity|]. split; [left; reflexivity|].
    intros v [<-|Hv]; [|auto]. split; [|eauto]. intros ->.
    pose proof (chain_root _ _ _ _ C) as R. inversion Cx; congruence.
Qed.

Lemma compress_ok r l : forall p, (forall v, In v l -> v <> r /\ exists m, chain (unx p) m v r) ->
  let p' := fold_left (fun d v => dset d v r) l p in
  (forall m z s, chain (unx p) m z s -> exists m', chain (unx p') m' z s) /\
  dkeys p' = dkeys p /\
  (forall z, dget p' z = dget p z \/ dget p' z = Some r /\ In z l) /\
  (forall z, In z l -> dget p' z = Some r).
Proof.
  induction l as [|v l IH]; intros p H; cbn [fold_left].
  - split; [eauto|]. split; [reflexivity|]. split; [auto|intros ? []].
  - destruct (H v (or_introl eq_refl)) as (Hv & n & Cv).
    assert (Step : forall m z s, chain (unx p) m z s -> exists m', chain (unx (dset p v r)) m' z s).
    { apply (chain_compress (unx p) (unx (dset p v r)) n v r Cv Hv). intros z. apply unx_dset, Hv. }
    destruct (IH (dset p v r)) as (A & B & D & G).
    { intros w Hw. destruct (H w (or_intror Hw)) as (Hw' & m & Cw). split; [exact Hw'|]. eauto. }
    split; [|split; [|split]].
    + intros m z s C. destruct (Step m z s C) as (m' & C'). eauto.
    + rewrite B, dkeys_dset. assert (X : dmem p v = true).
      { unfold dmem. destruct Cv as [x E1|? x ? ? E1 _]; unfold unx in E1; destruct (dget p x); congruence. }
      rewrite X. reflexivity.
    + intros z. destruct (D z) as [D1|[D1 D2]]; [|right; split; [exact D1|right; exact D2]].
      rewrite D1, dget_dset. destruct (Z.eqb_spec v z); [|auto]. subst. right. split; [reflexivity|left; reflexivity].
    + intros z [<-|Hz]; [|auto]. destruct (D v) as [D1|[D1 _]]; [|exact D1].
      rewrite D1. apply dget_dset_same.
Qed.

(** Invariant: representation of the classes [cls] on the elements [K]; the
    elements of [found] point directly to their representative. *)
Definition uinv (K : list Z) (s : uf) (cls : Z -> Z) (found : list Z) : Prop :=
  (forall x, In x (dkeys (uparent s)) <-> In x K) /\
  (forall x, In x K -> dget (urank s) x <> None) /\
  (forall x, In x K -> exists n, chain (unx (uparent s)) n x (cls x)) /\
  (forall x, In x found -> In x K /\ dget (uparent s) x = Some (cls x)).

Lemma fold_dset_get {V} (f : Z -> V) l : forall d x,
  dget (fold_left (fun d u => dset d u (f u)) l d) x = if in_dec Z.eq_dec x l then Some (f x) else dget d x.
Proof.
  induction l as [|a l IH]; intros d x; cbn [fold_left]; [reflexivity|].
  rewrite IH. destruct (in_dec Z.eq_dec x l), (in_dec Z.eq_dec x (a :: l)) as [H|H]; try reflexivity.
  - exfalso. apply H. right. assumption.
  - destruct H as [->|H]; [apply dget_dset_same|tauto].
  - apply dget_dset_other. intros ->. apply H. left; reflexivity.
Qed.

Lemma uinv_init K : uinv K (uf_init K) (fun x => x) [].
Proof.
  unfold uf_init. split; [|split; [|split]]; cbn [uparent urank].
  - intros x. rewrite dget_key. rewrite (fold_dset_get (fun u => u)).
    destruct (in_dec Z.eq_dec x K); split; intros H; eauto; [destruct H; discriminate|tauto].
  - intros x Hx. rewrite (fold_dset_get (fun _ => 0)). destruct (in_dec Z.eq_dec x K); [discriminate|tauto].
  - intros x Hx. exists O. constructor. unfold unx. rewrite (fold_dset_get (fun u => u)).
    destruct (in_dec Z.eq_dec x K); [|tauto]. rewrite Z.eqb_refl. reflexivity.
  - intros x [].
Qed.

Lemma uinv_cls_K K s cls found x : uinv K s cls found -> In x K -> In (cls x) K /\ dget (uparent s) (cls x) = Some (cls x).
Proof.
  intros (H1 & H2 & H3 & H4) Hx. destruct (H3 x Hx) as (n & C). apply chain_root in C. unfold unx in C.
  destruct (dget (uparent s) (cls x)) as [y|] eqn:E; [|discriminate]. destruct (Z.eqb_spec (cls x) y); [|discriminate].
  subst. split; [|congruence]. apply H1. apply dget_key. eauto.
Qed.

Lemma find_ok K s cls found x : uinv K s cls found -> In x K ->
  exists s', uf_find s x = Ret (cls x, s') /\ uinv K s' cls (x :: found).
Proof.
  intros Hinv Hx. pose proof Hinv as (H1 & H2 & H3 & H4). destruct (H3 x Hx) as (n & C).
  assert (Bd : (n < length (uparent s))%nat).
  { pose proof (chain_bound (unx (uparent s)) (dkeys (uparent s)) n x (cls x)) as B.
    unfold dkeys in B. rewrite map_length in B. apply B; [|exact C].
    intros y Hy. apply dget_key. unfold unx in Hy. destruct (dget (uparent s) y); [eauto|congruence]. }
  unfold uf_find. destruct (climb_ok _ _ _ _ C (S (length (uparent s))) []) as (l & E1 & E2 & E3); [lia|].
  rewrite E1. cbn [bind app]. eexists. split; [reflexivity|].
  destruct (compress_ok (cls x) l (uparent s) E3) as (A & B & D & G).
  assert (Cl : forall z, In z l -> cls z = cls x).
  { intros z Hz. destruct (E3 z Hz) as (_ & m & Cz).
    assert (Kz : In z K).
    { apply H1, dget_key. inversion Cz as [? E0|? ? ? ? E0 _]; subst; unfold unx in E0; destruct (dget (uparent s) _); try discriminate; eauto. }
    destruct (H3 z Kz) as (m' & Cz'). destruct (chain_det _ _ _ _ Cz _ _ Cz'). auto. }
  split; [|split; [|split]]; cbn [uparent urank].
  - intros z. rewrite B. apply H1.
  - exact H2.
  - intros z Hz. destruct (H3 z Hz) as (m & Cz). eauto.
  - intros z [<-|Hz].
    + split; [exact Hx|]. destruct (Z.eq_dec x (cls x)) as [Ex|Ex]; [|apply G, E2, Ex].
      destruct (D x) as [D1|[D1 _]]; [|exact D1]. rewrite D1, Ex at 1.
      apply (uinv_cls_K K s cls found); auto.
    + destruct (H4 z Hz) as [Kz Dz]. split; [exact Kz|]. destruct (D z) as [D1|[D1 D2]]; [congruence|].
      rewrite D1. f_equal. symmetry. auto.
Qed.

Lemma union_ok K s cls found x y : uinv K s cls found -> In x K -> In y K ->
  cls x = x \/ In x found -> cls y = y \/ In y found ->
  exists s', uf_union s x y = Ret s' /\ uinv K s' (join cls x y) [].
Proof.
  intros Hinv Hx Hy Gx Gy. pose proof Hinv as (H1 & H2 & H3 & H4).
  destruct (uinv_cls_K K s cls found x Hinv Hx) as [Kx Rx]. destruct (uinv_cls_K K s cls found y Hinv Hy) as [Ky Ry].
  assert (Px : dget (uparent s) x = Some (cls x)) by (destruct Gx as [E|G]; [congruence|apply (H4 x G)]).
  assert (Py : dget (uparent s) y = Some (cls y)) by (destruct Gy as [E|G]; [congruence|apply (H4 y G)]).
  unfold uf_union, dgetM. rewrite Px, Py. cbn [bind].
  destruct (dget (urank s) (cls x)) as [rx|] eqn:Erx; [|exfalso; apply (H2 (cls x)); auto]. cbn [bind].
  destruct (dget (urank s) (cls y)) as [ry|] eqn:Ery; [|exfalso; apply (H2 (cls y)); auto]. cbn [bind].
  eexists. split; [reflexivity|]. split; [|split; [|split]]; cbn [uparent urank].
  - intros z. rewrite dkeys_dset_In, H1. split; [|auto]. intros [H|H]; [auto|subst; auto].
  - intros z Hz. destruct (rx =? ry); [|auto]. rewrite dget_dset. destruct (cls y =? z); [discriminate|auto].
  - intros z Hz. destruct (H3 z Hz) as (m & C). unfold join.
    destruct (Z.eq_dec (cls x) (cls y)) as [e|e].
    + rewrite <- e. rewrite dset_id by exact Rx. destruct (Z.eqb_spec (cls z) (cls x)) as [E|E]; [rewrite <- E|]; eauto.
    + apply (chain_link (unx (uparent s)) (unx (dset (uparent s) (cls x) (cls y))) (cls x) (cls y)) with (m := m).
      * unfold unx. rewrite Ry, Z.eqb_refl. reflexivity.
      * exact e.
      * intros w. apply unx_dset, e.
      * exact C.
      * unfold unx. rewrite Rx, Z.eqb_refl. reflexivity.
  - intros z [].
Qed.

Lemma uf_run_ok K ops : forall s cls found, uinv K s cls found -> uf_allowed K cls found ops ->
  exists s' cls' found', uf_run s ops = Ret (uf_answers cls ops, s') /\ uinv K s' cls' found' /\
    cls' = fold_left (fun c o => match o with UFind _ => c | UUnion x y => join c x y end) ops cls.
Proof.
  induction ops as [|[x|x y] ops IH]; intros s cls found H A; cbn [uf_run uf_answers uf_allowed fold_left] in *.
  - exists s, cls, found. auto.
  - destruct A as [A1 A2]. destruct (find_ok K s cls found x H A1) as (s1 & -> & H1). cbn [bind].
    destruct (IH s1 cls (x :: found) H1 A2) as (s' & cls' & found' & -> & H2 & E). cbn [bind]. exists s', cls', found'. auto.
  - destruct A as (A1 & A2 & A3 & A4 & A5). destruct (union_ok K s cls found x y H A1 A2 A3 A4) as (s1 & -> & H1). cbn [bind].
    destruct (IH s1 _ [] H1 A5) as (s' & cls' & found' & -> & H2 & E). exists s', cls', found'. auto.
Qed.

(** The classes of the specification are the connected components. *)
Definition cls_after (ops : list uop) : Z -> Z :=
  fold_left (fun c o => match o with UFind _ => c | UUnion x y => join c x y end) ops (fun x => x).

Lemma conn_app ops o x y : conn ops x y -> conn (ops ++ [o]) x y.
Proof.
  induction 1.
  - apply conn_union, in_or_app. auto.
  - apply conn_refl.
  - apply conn_sym. auto.
  - eapply conn_trans; eauto.
Qed.

Lemma cls_conn ops : forall x y, cls_after ops x = cls_after ops y <-> conn ops x y.
Proof.
  induction ops as [|o ops IH] using rev_ind; intros x y.
  - unfold cls_after. cbn. split; [intros ->; apply conn_refl|].
    induction 1; [destruct H|reflexivity|congruence|congruence].
  - unfold cls_after in *. rewrite fold_left_app. cbn [fold_left].
    destruct o as [a|a b].
    + rewrite IH. split; [apply conn_app|]. induction 1.
      * apply in_app_or in H. destruct H as [H|[H|[]]]; [apply conn_union; auto|discriminate].
      * apply conn_refl.
      * apply conn_sym; auto.
      * eapply conn_trans; eauto.
    + set (c := fold_left _ ops _) in *. unfold join. split.
      * intros H. assert (Cab : conn (ops ++ [UUnion a b]) a b).
        { apply conn_union, in_or_app. right; left; reflexivity. }
        assert (L : forall u v, c u = c v -> conn (ops ++ [UUnion a b]) u v) by (intros u v Huv; apply conn_app, IH, Huv).
        destruct (Z.eqb_spec (c x) (c a)), (Z.eqb_spec (c y) (c a)).
        -- apply L; congruence.
        -- eapply conn_trans; [apply L; eassumption|]. eapply conn_trans; [exact Cab|]. apply L; congruence.
        -- apply conn_sym. eapply conn_trans; [apply L; eassumption|]. eapply conn_trans; [exact Cab|]. apply L; congruence.
        -- apply L, H.
      * induction 1.
        -- apply in_app_or in H. destruct H as [H|[H|[]]].
           ++ assert (E : c x = c y) by (apply IH, conn_union, H). rewrite E. reflexivity.
           ++ injection H as -> ->. rewrite Z.eqb_refl. destruct (c y =? c x); reflexivity.
        -- reflexivity.
        -- congruence.
        -- congruence.
Qed.
