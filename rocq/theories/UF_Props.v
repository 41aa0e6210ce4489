(** * C31 (disjoint sets) and C32 (memoisation) *)
From Coq Require Import ZArith List Lia Bool.
From Verif Require Import Base Dict UF_Model UF_Spec UF_Proofs UF_Proofs2.
Import ListNotations.
Open Scope Z_scope.

(** Every history that calls [union] on representatives or freshly found
    elements succeeds, and each [find] answers the representative of the class
    of its argument at that moment. *)
Theorem C31_history (K : list Z) (ops : list uop) :
  uf_allowed K (fun x => x) [] ops ->
  exists s, uf_run (uf_init K) ops = Ret (uf_answers (fun x => x) ops, s).
Proof.
  intros A. destruct (uf_run_ok K ops _ _ _ (uinv_init K) A) as (s & c & f & E & _). eauto.
Qed.

(** After such a history two elements have the same representative exactly when
    they are connected by the unions made. *)
Theorem C31_connected (K : list Z) (ops : list uop) (x y : Z) :
  uf_allowed K (fun x => x) [] ops -> In x K -> In y K ->
  exists rs s rx ry s1 s2, uf_run (uf_init K) ops = Ret (rs, s) /\
    uf_find s x = Ret (rx, s1) /\ uf_find s1 y = Ret (ry, s2) /\
    (rx = ry <-> conn ops x y) /\ conn ops x rx /\ conn ops y ry.
Proof.
  intros A Hx Hy. destruct (uf_run_ok K ops _ _ _ (uinv_init K) A) as (s & c & f & E & H & Ec).
  destruct (find_ok K s c f x H Hx) as (s1 & E1 & H1).
  destruct (find_ok K s1 c _ y H1 Hy) as (s2 & E2 & H2).
  exists (uf_answers (fun x => x) ops), s, (c x), (c y), s1, s2.
  assert (I : forall z, cls_after ops (cls_after ops z) = cls_after ops z).
  { clear. induction ops as [|o ops IH] using rev_ind; [reflexivity|].
    unfold cls_after in *. rewrite fold_left_app. cbn [fold_left]. revert IH.
    generalize (fold_left (fun c o => match o with UFind _ => c | UUnion x y => join c x y end) ops (fun x => x)).
    intros c IH z. destruct o as [a|a b]; [apply IH|]. unfold join.
    destruct (Z.eqb_spec (c z) (c a)) as [Ez|Nz]; rewrite IH.
    - destruct (c b =? c a); reflexivity.
    - destruct (Z.eqb_spec (c z) (c a)); [contradiction|reflexivity]. }
  fold (cls_after ops) in Ec. subst c. split; [exact E|]. split; [exact E1|]. split; [exact E2|].
  split; [apply cls_conn|]. split; apply cls_conn; symmetry; apply I.
Qed.

(** Without that discipline the claim fails: [union] only looks at the direct
    parents.  1, 2, 3, 4 with union(1,2), union(2,3), union(1,4): 2 and 3 are
    joined but find answers 4 and 3. *)
Theorem C31_arbitrary_union_refuted :
  exists s s1 s2, uf_run (uf_init [1; 2; 3; 4]) [UUnion 1 2; UUnion 2 3; UUnion 1 4] = Ret ([], s) /\
    uf_find s 2 = Ret (4, s1) /\ uf_find s1 3 = Ret (3, s2) /\
    conn [UUnion 1 2; UUnion 2 3; UUnion 1 4] 2 3.
Proof.
  do 3 eexists. split; [reflexivity|]. split; [reflexivity|]. split; [reflexivity|].
  apply conn_union. cbn. auto.
Qed.

(** Even then find never mixes up elements that were not joined: if it answers at all, after any history of calls,
    the answer is connected with its argument, and two elements with the same answer are connected. *)
Lemma climb_conn H fuel : forall p x path r path', (forall a b, dget p a = Some b -> conn H a b) -> (forall v, In v path -> conn H v x) ->
  uf_climb fuel p x path = Ret (r, path') -> conn H x r /\ forall v, In v path' -> conn H v r.
Proof.
  induction fuel as [|f IH]; intros p x path r path' I P E; [discriminate|]. cbn [uf_climb] in E. unfold dgetM in E.
  destruct (dget p x) as [px|] eqn:Ep; [|discriminate]. cbn [bind] in E. destruct (Z.eqb_spec x px) as [_|_].
  - injection E as <- <-. split; [apply conn_refl|exact P].
  - destruct (IH p px (path ++ [x]) r path' I) as (A & B); [|exact E|split; [apply (conn_trans _ _ px); [apply I, Ep|exact A]|exact B]].
    intros v Hv. apply in_app_or in Hv as [Hv|[<-|[]]]; [apply (conn_trans _ _ x); [apply P, Hv|]|]; apply I, Ep.
Qed.
Lemma find_conn H s x r s' : (forall a b, dget (uparent s) a = Some b -> conn H a b) -> uf_find s x = Ret (r, s') ->
  conn H x r /\ forall a b, dget (uparent s') a = Some b -> conn H a b.
Proof.
  intros I E. unfold uf_find in E. destruct (uf_climb _ _ x []) as [[r0 path]|e|] eqn:Ec; try discriminate. cbn [bind] in E. injection E as <- <-.
  destruct (climb_conn H _ _ _ [] _ _ I ltac:(intros v []) Ec) as (A & B). split; [exact A|]. cbn [uparent]. clear Ec A.
  revert I B. generalize (uparent s). induction path as [|v path IH]; intros d I B; [exact I|]. cbn [fold_left]. apply IH; [|intros w Hw; apply B; right; exact Hw].
  intros a b Eab. destruct (Z.eq_dec a v) as [->|N]; [rewrite dget_dset_same in Eab; injection Eab as <-; apply B; left; reflexivity|].
  rewrite dget_dset_other in Eab by congruence. apply I, Eab.
Qed.
Lemma run_conn H ops : forall s rs s', incl ops H -> (forall a b, dget (uparent s) a = Some b -> conn H a b) -> uf_run s ops = Ret (rs, s') ->
  forall a b, dget (uparent s') a = Some b -> conn H a b.
Proof.
  induction ops as [|[x|x y] ops IH]; intros s rs s' S I E; cbn [uf_run] in E.
  - injection E as <- <-. exact I.
  - destruct (uf_find s x) as [[r s1]|e|] eqn:Ef; try discriminate. cbn [bind] in E. destruct (uf_run s1 ops) as [[rs1 s2]|e|] eqn:Er; try discriminate.
    cbn [bind] in E. injection E as <- <-. apply (IH s1 rs1 s2); [intros o Ho; apply S; right; exact Ho|apply (find_conn H s x r s1 I Ef)|exact Er].
  - destruct (uf_union s x y) as [s1|e|] eqn:Eu; try discriminate. cbn [bind] in E. apply (IH s1 rs s'); [intros o Ho; apply S; right; exact Ho| |exact E].
    unfold uf_union, dgetM in Eu. destruct (dget (uparent s) x) as [px|] eqn:Ex; [|discriminate]. cbn [bind] in Eu.
    destruct (dget (uparent s) y) as [py|] eqn:Ey; [|discriminate]. cbn [bind] in Eu.
    destruct (dget (urank s) px); [|discriminate]. cbn [bind] in Eu. destruct (dget (urank s) py); [|discriminate]. cbn [bind] in Eu. injection Eu as <-. cbn [uparent].
    intros a b Eab. destruct (Z.eq_dec a px) as [->|N]; [|rewrite dget_dset_other in Eab by congruence; apply I, Eab].
    rewrite dget_dset_same in Eab. injection Eab as <-. apply (conn_trans _ _ x); [apply conn_sym, I, Ex|]. apply (conn_trans _ _ y); [|apply I, Ey].
    apply conn_union, S. left. reflexivity.
Qed.
Theorem C31_arbitrary_sound K ops rs s x y rx ry s1 s2 : uf_run (uf_init K) ops = Ret (rs, s) -> uf_find s x = Ret (rx, s1) -> uf_find s1 y = Ret (ry, s2) ->
  conn ops x rx /\ conn ops y ry /\ (rx = ry -> conn ops x y).
Proof.
  intros E E1 E2. assert (I : forall a b, dget (uparent s) a = Some b -> conn ops a b).
  { apply (run_conn ops ops (uf_init K) rs s (incl_refl _)); [|exact E]. unfold uf_init. cbn [uparent]. intros a b. rewrite (fold_dset_get (fun u => u)).
    destruct (in_dec Z.eq_dec a K); [|discriminate]. intros X. injection X as <-. apply conn_refl. }
  destruct (find_conn ops s x rx s1 I E1) as (A & I1). destruct (find_conn ops s1 y ry s2 I1 E2) as (B & _). split; [exact A|]. split; [exact B|].
  intros <-. apply (conn_trans _ _ rx); [exact A|apply conn_sym, B].
Qed.
Example C31_arbitrary_ex : exists s s1 s2, uf_run (uf_init [1; 2; 3; 4]) [UUnion 1 2; UUnion 2 3; UUnion 1 4] = Ret ([], s) /\
  uf_find s 1 = Ret (4, s1) /\ uf_find s1 2 = Ret (4, s2).
Proof. do 3 eexists. repeat split; reflexivity. Qed.

(** But it may not answer at all: union(a, b), union(b, c), union(c, a) makes b and c the parents of each other. *)
Theorem C31_arbitrary_union_cycle_refuted K a b c : In a K -> In b K -> In c K -> a <> b -> b <> c -> c <> a ->
  exists s, uf_run (uf_init K) [UUnion a b; UUnion b c; UUnion c a] = Ret ([], s) /\
    forall x, x = a \/ x = b \/ x = c -> forall fuel path, uf_climb fuel (uparent s) x path = Diverge.
Proof.
  intros Ia Ib Ic Nab Nbc Nca.
  assert (P : forall x, In x K -> dget (uparent (uf_init K)) x = Some x).
  { intros x Hx. unfold uf_init. cbn [uparent]. rewrite (fold_dset_get (fun u => u)). destruct (in_dec Z.eq_dec x K); [reflexivity|contradiction]. }
  assert (R : forall x, In x K -> dget (urank (uf_init K)) x = Some 0).
  { intros x Hx. unfold uf_init. cbn [urank]. rewrite (fold_dset_get (fun _ => 0)). destruct (in_dec Z.eq_dec x K); [reflexivity|contradiction]. }
  set (s0 := uf_init K) in *.
  assert (U1 : uf_union s0 a b = Ret (UF (dset (uparent s0) a b) (dset (urank s0) b 1))).
  { unfold uf_union, dgetM. rewrite (P a Ia), (P b Ib). cbn [bind]. rewrite (R a Ia), (R b Ib). reflexivity. }
  assert (U2 : uf_union (UF (dset (uparent s0) a b) (dset (urank s0) b 1)) b c = Ret (UF (dset (dset (uparent s0) a b) b c) (dset (urank s0) b 1))).
  { unfold uf_union, dgetM. cbn [uparent urank]. rewrite !(dget_dset_other (uparent s0)) by congruence. rewrite (P b Ib), (P c Ic). cbn [bind].
    rewrite dget_dset_same, (dget_dset_other (urank s0)) by congruence. rewrite (R c Ic). reflexivity. }
  set (p := dset (dset (uparent s0) a b) b c) in *.
  assert (Pa : dget p a = Some b) by (unfold p; rewrite dget_dset_other by congruence; apply dget_dset_same).
  assert (Pb : dget p b = Some c) by (unfold p; apply dget_dset_same).
  assert (Pc : dget p c = Some c) by (unfold p; rewrite !dget_dset_other by congruence; apply P, Ic).
  assert (U3 : uf_union (UF p (dset (urank s0) b 1)) c a = Ret (UF (dset p c b) (dset (urank s0) b 1))).
  { unfold uf_union, dgetM. cbn [uparent urank]. rewrite Pc, Pa. cbn [bind]. rewrite (dget_dset_other (urank s0)) by congruence. rewrite (R c Ic), dget_dset_same. reflexivity. }
  eexists. split; [cbn [uf_run]; rewrite U1; cbn [bind]; rewrite U2; cbn [bind]; rewrite U3; reflexivity|]. cbn [uparent].
  assert (L : forall fuel x path, x = a \/ x = b \/ x = c -> uf_climb fuel (dset p c b) x path = Diverge).
  { induction fuel as [|f IH]; intros x path X; [reflexivity|]. cbn [uf_climb]. unfold dgetM.
    destruct X as [->|[->| ->]]; [rewrite dget_dset_other, Pa by congruence|rewrite dget_dset_other, Pb by congruence|rewrite dget_dset_same]; cbn [bind].
    - destruct (Z.eqb_spec a b); [contradiction|]. apply IH. auto.
    - destruct (Z.eqb_spec b c); [contradiction|]. apply IH. auto.
    - destruct (Z.eqb_spec c b); [congruence|]. apply IH. auto. }
  intros x X fuel path. apply L, X.
Qed.

(** NamedUnionFind: every history joining two different names answers the name
    of the set of the element asked for. *)
Theorem C31_named_history (K : list Z) (ops : list nop) :
  nuf_allowed K (fun x => x) ops ->
  exists s, nuf_run (nuf_init K) ops = Ret (nuf_answers (fun x => x) ops, s).
Proof. intros A. apply (nuf_run_ok K); [apply ninv_init|exact A]. Qed.

(** union(u, u, w) makes a root its own father: find then never returns, after any history and for every element x of
    the set that was called u. *)
Definition names_after (cls : Z -> Z) (ops : list nop) : Z -> Z :=
  fold_left (fun cls op => match op with NFind _ => cls | NUnion u v w => njoin cls u v w end) ops cls.
Lemma nuf_run_inv K ops : forall s cls, ninv K s cls -> nuf_allowed K cls ops -> forall ops', exists s', ninv K s' (names_after cls ops) /\
  (nuf_run s' ops' = Diverge -> nuf_run s (ops ++ ops') = Diverge).
Proof.
  induction ops as [|[x|u v w] ops IH]; intros s cls H A ops'; cbn [nuf_run nuf_allowed app names_after fold_left] in *.
  - exists s. auto.
  - destruct A as [A1 A2]. destruct (nfind_ok K s cls x H A1) as (s1 & -> & H1). cbn [bind]. destruct (IH s1 cls H1 A2 ops') as (s' & N & Q). exists s'. split; [exact N|]. intros D. rewrite (Q D). reflexivity.
  - destruct A as (A1 & A2 & A3 & A4 & A5). destruct (nunion_ok K s cls u v w H A1 A2 A3 A4) as (s1 & -> & H1). cbn [bind]. apply (IH s1 _ H1 A5).
Qed.
Lemma climb_forever p r : forall n x, chain (dget p) n x r -> forall fuel path, nuf_climb fuel (dset p r (Some r)) x path = Diverge.
Proof.
  assert (L : forall fuel path, nuf_climb fuel (dset p r (Some r)) r path = Diverge).
  { induction fuel as [|f IH]; intros path; [reflexivity|]. cbn [nuf_climb]. unfold dgetM. rewrite dget_dset_same. cbn [bind]. apply IH. }
  intros n x C. induction C as [r E|n x y r E C IH]; intros fuel path; [apply L|]. destruct fuel as [|f]; [reflexivity|]. cbn [nuf_climb]. unfold dgetM.
  destruct (Z.eq_dec x r) as [->|D]; [rewrite dget_dset_same; cbn [bind]; apply L|]. rewrite dget_dset_other by congruence. rewrite E. cbn [bind]. apply IH. exact L.
Qed.
Theorem C31_named_self_union_refuted K ops x w : nuf_allowed K (fun x => x) ops -> In x K ->
  nuf_run (nuf_init K) (ops ++ [NUnion (names_after (fun x => x) ops x) (names_after (fun x => x) ops x) w; NFind x]) = Diverge.
Proof.
  intros A Ix. destruct (nuf_run_inv K ops _ _ (ninv_init K) A [NUnion (names_after (fun x => x) ops x) (names_after (fun x => x) ops x) w; NFind x]) as (s & (_ & H) & Q). apply Q. clear Q.
  destruct (H x Ix) as (n & r & C & _ & Rr & Tr). set (u := names_after (fun x => x) ops x) in *. cbn [nuf_run]. unfold nuf_union, dgetM. rewrite Rr. cbn [bind].
  destruct (dget (ncount s) r) as [c|] eqn:Ec; [|congruence]. cbn [bind]. destruct (c >? c); rewrite !Rr; cbn [bind]; rewrite !Ec; cbn [bind]; unfold nuf_find; cbn [nfather]; rewrite (climb_forever (nfather s) r n x C); reflexivity.
Qed.
Example C31_named_self_ex : nuf_allowed [1; 2; 3] (fun x => x) [NUnion 1 2 7; NFind 2] /\ names_after (fun x => x) [NUnion 1 2 7; NFind 2] 2 = 7 /\
  nuf_run (nuf_init [1; 2; 3]) [NUnion 1 2 7; NFind 2; NUnion 7 7 5; NFind 2] = Diverge.
Proof.
  split; [|split; reflexivity]. cbn. repeat split; try lia; try (exists 1; cbn; lia); try (exists 2; cbn; lia). right. right. intros (x & Ix & E). cbn in Ix. lia.
Qed.

(** A function decorated by [cached_function] is indistinguishable from the
    function itself, called on any sequence of arguments. *)
Theorem C32_transparent {A B : Type} (eqb : A -> A -> bool) (func : A -> outcome B)
    (eqb_ok : forall a b, eqb a b = true <-> a = b) (calls : list A) :
  fst (wrap_run eqb func [] calls) = map func calls.
Proof. apply (wrap_run_ok eqb func eqb_ok). intros a b E. discriminate. Qed.

(** It calls the function only on arguments it was asked for, and at most once
    on each argument on which the function returns. *)
Theorem C32_called_once {A B : Type} (eqb : A -> A -> bool) (func : A -> outcome B)
    (eqb_ok : forall a b, eqb a b = true <-> a = b) (calls : list A) :
  NoDup (filter (fun a => is_ret (func a)) (snd (wrap_run eqb func [] calls))) /\
  (forall a, In a (snd (wrap_run eqb func [] calls)) <-> In a calls).
Proof.
  destruct (wrap_run_ok eqb func eqb_ok calls []) as (_ & _ & H3 & H4); [intros a b E; discriminate|].
  split; [exact H3|]. intros a. split; [apply H4|]. intros Ha.
  assert (G : forall cs cache, In a cs -> (exists b, lookup eqb cache a = Some b) \/ In a (snd (wrap_run eqb func cache cs))).
  { clear - eqb_ok. induction cs as [|c cs IH]; intros cache [].
    - subst c. cbn [wrap_run]. unfold wrap. destruct (lookup eqb cache a) as [b|] eqn:E; [left; eauto|right].
      destruct (func a); destruct (wrap_run eqb func _ cs); left; reflexivity.
    - cbn [wrap_run]. unfold wrap. destruct (lookup eqb cache c) as [b|] eqn:E.
      + specialize (IH cache H). destruct (wrap_run eqb func cache cs). exact IH.
      + destruct (func c) as [b|e|].
        * specialize (IH ((c, b) :: cache) H). destruct (wrap_run eqb func ((c, b) :: cache) cs) as [rs us]. cbn [snd app].
          destruct IH as [[b' Hb]|Hi]; [|right; right; exact Hi]. cbn [lookup] in Hb.
          destruct (eqb c a) eqn:Eq; [|left; eauto]. right. left.
          apply eqb_ok. exact Eq.
        * specialize (IH cache H). destruct (wrap_run eqb func cache cs) as [rs us]. destruct IH; [auto|right; right; assumption].
        * specialize (IH cache H). destruct (wrap_run eqb func cache cs) as [rs us]. destruct IH; [auto|right; right; assumption]. }
  destruct (G calls [] Ha) as [[b Hb]|Hi]; [discriminate|exact Hi].
Qed.

(** Non-vacuity. *)
Example C31_ex : uf_allowed [1; 2; 3] (fun x => x) [] [UUnion 1 2; UFind 1; UFind 3; UUnion 1 3; UFind 1].
Proof. cbn. intuition. Qed.
Example C31_ex_run : exists s,
  uf_run (uf_init [1; 2; 3]) [UUnion 1 2; UFind 1; UFind 3; UUnion 1 3; UFind 1] = Ret ([2; 3; 3], s).
Proof. eexists. reflexivity. Qed.
Example C31_named_ex : nuf_allowed [1; 2; 3] (fun x => x) [NUnion 1 2 7; NFind 1; NUnion 7 3 3; NFind 2].
Proof.
  cbn. assert (is_name [1; 2; 3] (fun x => x) 1) by (exists 1; cbn; auto).
  assert (is_name [1; 2; 3] (fun x => x) 2) by (exists 2; cbn; auto).
  split; [lia|]. split; [assumption|]. split; [assumption|]. split.
  { right. right. intros (x & Hx & E). cbn in Hx. lia. }
  split; [auto|]. split; [lia|]. split; [exists 1; cbn; auto|]. split; [exists 3; cbn; auto|]. auto.
Qed.
Example C32_ex : wrap_run Z.eqb (fun x => if x =? 0 then Raise ValueError else Ret (x * x)) [] [3; 0; 3; 0; 4] =
  ([Ret 9; Raise ValueError; Ret 9; Raise ValueError; Ret 16], [3; 0; 0; 4]).
Proof. reflexivity. Qed.

Print Assumptions C31_arbitrary_sound.
Print Assumptions C31_arbitrary_union_cycle_refuted.
Print Assumptions C31_history.
Print Assumptions C31_connected.
Print Assumptions C31_arbitrary_union_refuted.
Print Assumptions C31_named_history.
Print Assumptions C31_named_self_union_refuted.
Print Assumptions C32_transparent.
Print Assumptions C32_called_once.
