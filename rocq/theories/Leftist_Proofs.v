(** * Proofs about the leftist heap *)
From Coq Require Import ZArith List Lia Bool Permutation Sorted.
From Verif Require Import Base Lists Leftist_Model Heap_Spec.
Import ListNotations.
Open Scope Z_scope.

Fixpoint elems (t : lnode) : list Z :=
  match t with LNone => [] | LNode v _ l r => v :: elems l ++ elems r end.

Fixpoint hord (t : lnode) : Prop :=
  match t with
  | LNone => True
  | LNode v _ l r => (forall x, In x (elems l ++ elems r) -> v <= x) /\ hord l /\ hord r
  end.

(** Rank of a node, -1 for a missing one; the leftist property. *)
Definition rk (t : lnode) : Z := match t with LNone => -1 | LNode _ r _ _ => r end.
Fixpoint leftist (t : lnode) : Prop :=
  match t with
  | LNone => True
  | LNode _ k l r => k = rk r + 1 /\ rk r <= rk l /\ leftist l /\ leftist r
  end.

Lemma elems_length t : length (elems t) = lsize t.
Proof. induction t; cbn [elems lsize length]; [reflexivity|]. rewrite app_length. lia. Qed.

Lemma attach_elems v l c : Permutation (elems (attach v l c)) (v :: elems l ++ elems c).
Proof.
  unfold attach. destruct l as [|vl rl ll lr]; [cbn; rewrite app_nil_r; auto|].
  destruct c as [|vc rc cl cr]; [reflexivity|].
  destruct (rc <=? rl); [reflexivity|]. cbn [elems]. constructor. apply Permutation_app_comm.
Qed.

Lemma attach_hord v l c : hord l -> hord c -> (forall x, In x (elems l ++ elems c) -> v <= x) ->
  hord (attach v l c).
Proof.
  intros Hl Hc H. unfold attach. destruct l as [|vl rl ll lr].
  - cbn [hord elems app] in *. rewrite app_nil_r. auto.
  - destruct c as [|vc rc cl cr].
    + cbn [hord] in *. auto.
    + destruct (rc <=? rl); cbn [hord]; (split; [|split; assumption]).
      * exact H.
      * intros x Hx. apply H. rewrite in_app_iff in *. tauto.
Qed.

Lemma rk_ge t : leftist t -> -1 <= rk t.
Proof.
  induction t as [|v k l IHl r IHr]; cbn [leftist rk]; [lia|]. intros (H1 & _ & _ & H2).
  specialize (IHr H2). lia.
Qed.

Lemma attach_leftist v l c : leftist l -> leftist c -> leftist (attach v l c).
Proof.
  intros Hl Hc. pose proof (rk_ge l Hl) as Gl. pose proof (rk_ge c Hc) as Gc.
  unfold attach. destruct l as [|vl rl ll lr].
  - change (0 = -1 + 1 /\ -1 <= rk c /\ leftist c /\ True). auto with zarith.
  - destruct c as [|vc rc cl cr].
    + change (0 = -1 + 1 /\ -1 <= rl /\ leftist (LNode vl rl ll lr) /\ True).
      cbn [rk] in Gl. auto with zarith.
    + destruct (Z.leb_spec rc rl).
      * change (rc + 1 = rc + 1 /\ rc <= rl /\ leftist (LNode vl rl ll lr) /\ leftist (LNode vc rc cl cr)).
        auto.
      * change (rl + 1 = rl + 1 /\ rl <= rc /\ leftist (LNode vc rc cl cr) /\ leftist (LNode vl rl ll lr)).
        auto with zarith.
Qed.

Lemma lmerge_fuel_S f a b : lmerge_fuel (S f) a b =
  match a, b with
  | LNone, _ => b
  | _, LNone => a
  | LNode va _ la ra, LNode vb _ lb rb =>
      if va >? vb then
        attach vb lb (match rb with LNone => a | _ => lmerge_fuel f rb a end)
      else
        attach va la (match ra with LNone => b | _ => lmerge_fuel f ra b end)
  end.
Proof. destruct a, b; reflexivity. Qed.

Lemma lmerge_fuel_elems f a b : (lsize a + lsize b < f)%nat ->
  Permutation (elems (lmerge_fuel f a b)) (elems a ++ elems b).
Proof.
  revert a b. induction f as [|f IH]; intros a b H; [lia|]. rewrite lmerge_fuel_S.
  destruct a as [|va ka la ra]; [reflexivity|].
  destruct b as [|vb kb lb rb]; [rewrite app_nil_r; reflexivity|].
  destruct (va >? vb).
  - assert (P : Permutation (elems (match rb with LNone => LNode va ka la ra | _ => lmerge_fuel f rb (LNode va ka la ra) end))
                (elems rb ++ elems (LNode va ka la ra))).
    { destruct rb eqn:Eb; [reflexivity|]. apply IH. cbn [lsize] in *. lia. }
    rewrite attach_elems, P. rewrite (Permutation_app_comm (elems (LNode va ka la ra))).
    cbn [elems app]. constructor. rewrite <- app_assoc. reflexivity.
  - assert (P : Permutation (elems (match ra with LNone => LNode vb kb lb rb | _ => lmerge_fuel f ra (LNode vb kb lb rb) end))
                (elems ra ++ elems (LNode vb kb lb rb))).
    { destruct ra eqn:Ea; [reflexivity|]. apply IH. cbn [lsize] in *. lia. }
    rewrite attach_elems, P. cbn [elems app]. constructor. rewrite <- app_assoc. reflexivity.
Qed.

Lemma lmerge_elems a b : Permutation (elems (lmerge a b)) (elems a ++ elems b).
Proof. apply lmerge_fuel_elems. lia. Qed.

Lemma lmerge_fuel_hord f a b : (lsize a + lsize b < f)%nat -> hord a -> hord b ->
  hord (lmerge_fuel f a b).
Proof.
  revert a b. induction f as [|f IH]; intros a b H Ha Hb; [lia|]. rewrite lmerge_fuel_S.
  destruct a as [|va ka la ra]; [exact Hb|].
  destruct b as [|vb kb lb rb]; [exact Ha|].
  pose proof Ha as (Ha1 & Ha2 & Ha3). pose proof Hb as (Hb1 & Hb2 & Hb3).
  rewrite Z.gtb_ltb. destruct (Z.ltb_spec vb va) as [L|L].
  - apply attach_hord; [exact Hb2| |].
    + destruct rb eqn:Eb; [exact Ha|]. apply IH; auto. cbn [lsize] in *. lia.
    + intros x [Hx|Hx]%in_app_or; [apply Hb1, in_or_app; auto|].
      assert (D : In x (elems rb) \/ In x (elems (LNode va ka la ra))).
      { destruct rb eqn:Eb; [auto|].
        eapply Permutation_in in Hx; [|apply lmerge_fuel_elems; cbn [lsize] in *; lia].
        apply in_app_or in Hx. exact Hx. }
      destruct D as [D|D]; [apply Hb1, in_or_app; auto|].
      cbn [elems In] in D. destruct D as [D|D]; [lia|]. specialize (Ha1 x D). lia.
  - apply attach_hord; [exact Ha2| |].
    + destruct ra eqn:Ea; [exact Hb|]. apply IH; auto. cbn [lsize] in *. lia.
    + intros x [Hx|Hx]%in_app_or; [apply Ha1, in_or_app; auto|].
      assert (D : In x (elems ra) \/ In x (elems (LNode vb kb lb rb))).
      { destruct ra eqn:Ea; [auto|].
        eapply Permutation_in in Hx; [|apply lmerge_fuel_elems; cbn [lsize] in *; lia].
        apply in_app_or in Hx. exact Hx. }
      destruct D as [D|D]; [apply Ha1, in_or_app; auto|].
      cbn [elems In] in D. destruct D as [D|D]; [lia|]. specialize (Hb1 x D). lia.
Qed.

Lemma lmerge_hord a b : hord a -> hord b -> hord (lmerge a b).
Proof. apply lmerge_fuel_hord. lia. Qed.

Lemma lmerge_fuel_leftist f a b : leftist a -> leftist b -> leftist (lmerge_fuel f a b).
Proof.
  revert a b. induction f as [|f IH]; intros a b Ha Hb; [exact I|]. rewrite lmerge_fuel_S.
  destruct a as [|va ka la ra]; [exact Hb|].
  destruct b as [|vb kb lb rb]; [exact Ha|].
  pose proof Ha as (_ & _ & Ha2 & Ha3). pose proof Hb as (_ & _ & Hb2 & Hb3).
  destruct (va >? vb).
  - apply attach_leftist; [exact Hb2|]. destruct rb eqn:Eb; [exact Ha|]. apply IH; auto.
  - apply attach_leftist; [exact Ha2|]. destruct ra eqn:Eb; [exact Hb|]. apply IH; auto.
Qed.

Definition lok (t : lnode) (l : list Z) := hord t /\ leftist t /\ Permutation (elems t) l.

Lemma lok_merge a b la lb : lok a la -> lok b lb -> lok (lmerge a b) (la ++ lb).
Proof.
  intros (A1 & A2 & A3) (B1 & B2 & B3). split; [apply lmerge_hord; auto|].
  split; [apply lmerge_fuel_leftist; auto|]. rewrite lmerge_elems, A3, B3. reflexivity.
Qed.

Lemma lok_perm t l l' : Permutation l l' -> lok t l -> lok t l'.
Proof. intros P (H1 & H2 & H3). split; [|split]; auto. rewrite H3. exact P. Qed.

Lemma lok_new v : lok (new_node v) [v].
Proof.
  split; [cbn; split; [intros ? []|auto]|]. split; [cbn; auto with zarith|]. cbn. reflexivity.
Qed.

Lemma lbuild_ok fuel : forall (nodes : list lnode) (ls : list (list Z)) last,
  Forall2 lok nodes ls -> (length nodes <= fuel)%nat -> (2 <= length nodes)%nat \/ (length nodes = 1)%nat /\ last = hd_error nodes ->
  exists t, lbuild fuel nodes last = Some t /\ lok t (concat ls).
Proof.
  induction fuel as [|f IH]; intros nodes ls last F L D; [lia|].
  destruct nodes as [|a [|b rest]].
  - cbn in D. lia.
  - destruct D as [D|[_ D]]; [cbn in D; lia|]. cbn in D. subst. cbn [lbuild].
    inversion F as [|? l ? ls' Hl F']; subst. inversion F'; subst. exists a. split; [reflexivity|].
    cbn. rewrite app_nil_r. exact Hl.
  - inversion F as [|? la ? ls' Hl F']; subst. inversion F' as [|? lb ? ls'' Hb F'']; subst.
    cbn [lbuild]. destruct (IH (rest ++ [lmerge a b]) (ls'' ++ [la ++ lb]) (Some (lmerge a b))) as (t & E & Ht).
    + apply Forall2_app; [exact F''|]. constructor; [apply lok_merge; auto|constructor].
    + rewrite app_length. cbn [length] in *. lia.
    + destruct rest; [right|left].
      * split; reflexivity.
      * rewrite app_length. cbn. lia.
    + exists t. split; [exact E|]. revert Ht. apply lok_perm. rewrite concat_app. cbn [concat].
      rewrite app_nil_r. rewrite Permutation_app_comm. rewrite <- app_assoc. reflexivity.
Qed.

Lemma lh_init_ok vs : (2 <= length vs)%nat ->
  exists t, lh_init vs = Ret {| root := t; size := Z.of_nat (length vs) |} /\ lok t vs.
Proof.
  intros H. unfold lh_init.
  destruct (lbuild_ok (length vs) (map new_node vs) (map (fun v => [v]) vs) None) as (t & E & Ht).
  - induction vs as [|v vs IH]; [constructor|]. cbn [map]. constructor; [apply lok_new|].
    clear. induction vs; constructor; [apply lok_new|auto].
  - rewrite map_length. auto.
  - left. rewrite map_length. exact H.
  - rewrite E. exists t. split; [repeat f_equal; lia|].
    assert (C : concat (map (fun v => [v]) vs) = vs).
    { clear. induction vs; cbn; [reflexivity|]. f_equal. auto. }
    rewrite C in Ht. exact Ht.
Qed.

Lemma lh_init_error vs : (length vs < 2)%nat -> lh_init vs = Raise UnboundLocalError.
Proof. intros H. destruct vs as [|a [|b vs]]; [reflexivity|reflexivity|cbn in H; lia]. Qed.

(** The refinement relation between a heap and the sorted list of its contents. *)
Definition hrep (h : lheap) (q : list Z) : Prop :=
  lok (root h) q /\ StronglySorted Z.le q /\ size h = Z.of_nat (length q).

Lemma fold_insert_sorted vs q : StronglySorted Z.le q -> StronglySorted Z.le (fold_right zinsert q vs).
Proof. intros H. induction vs; cbn; [exact H|]. apply zinsert_sorted. auto. Qed.

Lemma fold_insert_perm vs q : Permutation (fold_right zinsert q vs) (vs ++ q).
Proof. induction vs; cbn; [reflexivity|]. rewrite zinsert_perm. constructor. auto. Qed.

Lemma sorted_head x q y : StronglySorted Z.le (x :: q) -> In y (x :: q) -> x <= y.
Proof.
  intros H [->|H1]; [lia|]. inversion H as [|? ? _ F]. rewrite Forall_forall in F. auto.
Qed.

Lemma root_min t q : lok t q -> StronglySorted Z.le q ->
  match t with
  | LNone => q = []
  | LNode v _ l r => exists q', q = v :: q' /\ Permutation (elems l ++ elems r) q'
  end.
Proof.
  intros (H1 & _ & H3) S. destruct t as [|v k l r]; cbn [elems] in H3.
  - apply Permutation_nil in H3. exact H3.
  - destruct q as [|x q]; [symmetry in H3; apply Permutation_nil in H3; discriminate|].
    assert (x = v).
    { assert (x <= v). { apply (sorted_head x q); [exact S|]. eapply Permutation_in; [exact H3|]. left; auto. }
      assert (v <= x).
      { assert (In x (v :: elems l ++ elems r)) as [->|Hx].
        { eapply Permutation_in; [symmetry; exact H3|]. left; auto. }
        - lia.
        - destruct H1 as [H1 _]. apply H1. exact Hx. }
      lia. }
    subst. exists q. split; [reflexivity|]. apply Permutation_cons_inv in H3. exact H3.
Qed.

Lemma lh_step_ok h q o : hrep h q ->
  fst (lh_step h o) = fst (pq_step q o) /\ hrep (snd (lh_step h o)) (snd (pq_step q o)).
Proof.
  intros (H1 & H2 & H3). pose proof (root_min _ _ H1 H2) as M.
  destruct o as [v| | | |vs]; cbn [lh_step pq_step].
  - split; [reflexivity|]. cbn [snd]. unfold lh_insert. split; [|split]; cbn [root size].
    + apply (lok_perm _ (q ++ [v])).
      { rewrite zinsert_perm. rewrite Permutation_app_comm. reflexivity. }
      destruct (root h) as [|w k l r] eqn:E.
      * rewrite M. apply lok_new.
      * apply lok_merge; [exact H1|apply lok_new].
    + apply zinsert_sorted, H2.
    + rewrite (Permutation_length (zinsert_perm v q)). cbn [length]. lia.
  - unfold lh_find_min. destruct (root h) as [|w k l r] eqn:E.
    + subst q. cbn. split; [reflexivity|]. split; [|split]; auto. rewrite E. exact H1.
    + destruct M as (q' & -> & P). cbn. split; [reflexivity|]. split; [|split]; auto. rewrite E. exact H1.
  - unfold lh_delete_min. destruct (root h) as [|w k l r] eqn:E.
    + subst q. cbn. split; [reflexivity|]. split; [|split]; auto. rewrite E. exact H1.
    + destruct M as (q' & -> & P). cbn [fst snd]. split; [reflexivity|]. split; [|split]; cbn [root size].
      * destruct H1 as ((_ & A1 & A2) & (_ & _ & B1 & B2) & _).
        apply (lok_perm _ _ _ P). apply lok_merge; (split; [|split]; auto).
      * inversion H2; auto.
      * cbn [length] in H3. lia.
  - unfold lh_len. cbn. split; [rewrite H3; reflexivity|]. split; auto.
  - destruct (Nat.ltb_spec (length vs) 2) as [L|L].
    + rewrite lh_init_error by exact L. cbn. split; [reflexivity|]. split; auto.
    + destruct (lh_init_ok vs L) as (t & E & Ht). rewrite E. cbn [fst snd]. split; [reflexivity|].
      unfold lh_merge. split; [|split]; cbn [root size].
      * apply (lok_perm _ (q ++ vs)).
        { rewrite fold_insert_perm. apply Permutation_app_comm. }
        apply lok_merge; auto.
      * apply fold_insert_sorted, H2.
      * rewrite (Permutation_length (fold_insert_perm vs q)), app_length. lia.
Qed.

Lemma lh_run_ok ops : forall h q, hrep h q ->
  fst (lh_run h ops) = fst (pq_run q ops) /\ hrep (snd (lh_run h ops)) (snd (pq_run q ops)).
Proof.
  induction ops as [|o ops IH]; intros h q H; [split; [reflexivity|exact H]|].
  cbn [lh_run pq_run]. destruct (lh_step_ok h q o H) as [H1 H2].
  destruct (lh_step h o) as [r h']. destruct (pq_step q o) as [r' q']. cbn [fst snd] in *.
  destruct (IH h' q' H2) as [H3 H4].
  destruct (lh_run h' ops) as [rs h'']. destruct (pq_run q' ops) as [rs' q'']. cbn [fst snd] in *.
  split; [congruence|exact H4].
Qed.

Lemma lh_init_rep vs : (2 <= length vs)%nat -> exists h, lh_init vs = Ret h /\ hrep h (zsort vs).
Proof.
  intros H. destruct (lh_init_ok vs H) as (t & E & Ht). eexists. split; [exact E|].
  split; [|split]; cbn [root size].
  - revert Ht. apply lok_perm. symmetry. apply zsort_perm.
  - apply zsort_sorted.
  - rewrite (Permutation_length (zsort_perm vs)). reflexivity.
Qed.

Lemma lh_iter_ok q : forall h, hrep h q -> exists h', lh_iter h = (map Some q, h') /\ hrep h' [].
Proof.
  unfold lh_iter. intros h H. replace (Z.to_nat (size h)) with (length q) by (destruct H as (_ & _ & ->); lia).
  revert h H. induction q as [|x q IH]; intros h H; [exists h; auto|]. cbn [length lh_iter_fuel].
  destruct (lh_step_ok h (x :: q) LDeleteMin H) as [H1 H2]. cbn [lh_step pq_step fst snd] in *.
  destruct (lh_delete_min h) as [v h']. cbn [fst snd] in *. destruct (IH h' H2) as (h'' & E & H3).
  rewrite E. injection H1 as ->. exists h''. split; [reflexivity|exact H3].
Qed.

(** The right spine is logarithmic, which bounds the recursion depth of merge. *)
Fixpoint rspine (t : lnode) : Z := match t with LNone => 0 | LNode _ _ _ r => 1 + rspine r end.

Lemma leftist_spine t : leftist t -> rspine t = rk t + 1 /\ 2 ^ rspine t <= Z.of_nat (lsize t) + 1.
Proof.
  induction t as [|v k l IHl r IHr]; intros H; [cbn; lia|].
  destruct H as (H1 & H2 & H3 & H4). cbn [rspine rk lsize].
  destruct (IHl H3) as [L1 L2]. destruct (IHr H4) as [R1 R2]. split; [lia|].
  pose proof (rk_ge r H4). rewrite Z.pow_add_r by lia. change (2 ^ 1) with 2.
  assert (2 ^ rspine r <= 2 ^ rspine l) by (apply Z.pow_le_mono_r; lia). lia.
Qed.
