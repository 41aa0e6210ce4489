(** * Proofs about Bell numbers and bipartitions *)
From Coq Require Import ZArith List Lia Bool Sorting.Sorted Sorting.Permutation.
From Verif Require Import Base Lists Lists2 Count Perm_Proofs Tuples_Proofs Enum_Model Enum_Proofs.
Import ListNotations.
Open Scope Z_scope.

(** ** Set partitions

    A set partition of the increasing list X of integers, written canonically:
    the blocks are nonempty increasing lists, ordered by their first elements. *)
Definition set_partition (X : list Z) (P : list (list Z)) : Prop :=
  Forall (fun b => b <> [] /\ StronglySorted Z.lt b) P /\
  StronglySorted (fun b c => hd 0 b < hd 0 c) P /\
  Permutation (concat P) X.

(** Sublists of a given length. *)
Fixpoint sublists (k : nat) (X : list Z) : list (list Z) :=
  match k, X with
  | O, _ => [[]]
  | S _, [] => []
  | S k', x :: X' => map (cons x) (sublists k' X') ++ sublists k X'
  end.

Definition subseq_of (X b : list Z) : Prop := StronglySorted Z.lt b /\ forall x, In x b -> In x X.

Lemma sublists_In : forall X k b, StronglySorted Z.lt X -> In b (sublists k X) <-> subseq_of X b /\ length b = k.
Proof.
  induction X as [|x X IH]; intros k b HX.
  - destruct k as [|k]; cbn [sublists].
    + split; [intros [<-|[]]; repeat split; [constructor|intros ? []]|]. intros [_ H]. destruct b; [left; reflexivity|discriminate].
    + split; [intros []|]. intros [[_ H] Hl]. destruct b as [|y b]; [discriminate|]. destruct (H y (or_introl eq_refl)).
  - inversion_clear HX as [|? ? HX' Hf]. rewrite Forall_forall in Hf. destruct k as [|k]; cbn [sublists].
    + split; [intros [<-|[]]; repeat split; [constructor|intros ? []]|]. intros [_ H]. destruct b; [left; reflexivity|discriminate].
    + rewrite in_app_iff, in_map_iff. split.
      * intros [(b' & <- & Hb)|Hb]; apply IH in Hb; try exact HX'; destruct Hb as [[H1 H2] H3].
        -- split; [|cbn; lia]. split.
           ++ constructor; [exact H1|]. apply Forall_forall. intros y Hy. apply Hf, H2, Hy.
           ++ intros y [<-|Hy]; [left; reflexivity|right; apply H2, Hy].
        -- split; [|exact H3]. split; [exact H1|]. intros y Hy. right. apply H2, Hy.
      * intros [[H1 H2] H3]. destruct b as [|y b]; [discriminate|]. inversion_clear H1 as [|? ? H4 H5]. rewrite Forall_forall in H5.
        destruct (Z.eq_dec y x) as [->|Hyx].
        -- left. exists b. split; [reflexivity|]. apply IH; [exact HX'|]. split; [|cbn in H3; lia]. split; [exact H4|].
           intros z Hz. specialize (H5 z Hz). destruct (H2 z (or_intror Hz)) as [E|E]; [lia|exact E].
        -- right. apply IH; [exact HX'|]. split; [|exact H3]. split; [constructor; [exact H4|apply Forall_forall; exact H5]|].
           intros z Hz. destruct (H2 z Hz) as [E|E]; [|exact E]. subst z. destruct Hz as [E|Hz]; [congruence|].
           specialize (H5 x Hz). destruct (H2 y (or_introl eq_refl)) as [E|E]; [congruence|]. specialize (Hf y E). lia.
Qed.

Lemma sublists_NoDup : forall X k, StronglySorted Z.lt X -> NoDup (sublists k X).
Proof.
  induction X as [|x X IH]; intros [|k] HX; cbn [sublists]; try (repeat constructor; intros []).
  inversion_clear HX as [|? ? HX' Hf]. rewrite Forall_forall in Hf. apply NoDup_app_intro.
  - apply NoDup_map_inj; [apply IH, HX'|]. intros a b _ _ E. injection E as ->. reflexivity.
  - apply IH, HX'.
  - intros b Hb Hb'. apply in_map_iff in Hb. destruct Hb as (b' & <- & _). apply sublists_In in Hb'; [|exact HX'].
    destruct Hb' as [[_ H] _]. specialize (Hf x (H x (or_introl eq_refl))). lia.
Qed.

Lemma sublists_length : forall X k, Z.of_nat (length (sublists k X)) = choose (length X) k.
Proof.
  induction X as [|x X IH]; intros [|k]; try reflexivity. cbn [sublists length choose]. rewrite app_length, map_length, Nat2Z.inj_add, !IH. reflexivity.
Qed.

(** Complement of b in X. *)
Definition without (b X : list Z) : list Z := filter (fun x => negb (existsb (Z.eqb x) b)) X.

Lemma without_In b X x : In x (without b X) <-> In x X /\ ~ In x b.
Proof.
  unfold without. rewrite filter_In, negb_true_iff, <- not_true_iff_false, existsb_exists. split.
  - intros [H1 H2]. split; [exact H1|]. intros H. apply H2. exists x. split; [exact H|apply Z.eqb_refl].
  - intros [H1 H2]. split; [exact H1|]. intros (y & Hy & E). apply Z.eqb_eq in E. subst y. exact (H2 Hy).
Qed.

Lemma without_sorted b X : StronglySorted Z.lt X -> StronglySorted Z.lt (without b X).
Proof. intros H. apply filter_sorted, H. Qed.

Lemma sorted_perm_eq u v : StronglySorted Z.lt u -> StronglySorted Z.lt v -> (forall x, In x u <-> In x v) -> u = v.
Proof. apply sorted_lt_ext. Qed.

Lemma without_perm b X : StronglySorted Z.lt X -> subseq_of X b -> Permutation (b ++ without b X) X.
Proof.
  intros HX [H1 H2]. apply NoDup_same_perm.
  - apply NoDup_app_intro; [apply sorted_lt_NoDup, H1|apply sorted_lt_NoDup, without_sorted, HX|].
    intros x Hx Hy. apply without_In in Hy. tauto.
  - apply sorted_lt_NoDup, HX.
  - intros x. rewrite in_app_iff, without_In. split; [intros [H|H]; [apply H2, H|tauto]|].
    intros Hx. destruct (in_dec Z.eq_dec x b); tauto.
Qed.

Lemma without_length b X : StronglySorted Z.lt X -> subseq_of X b -> length (without b X) = (length X - length b)%nat.
Proof. intros HX H. pose proof (Permutation_length (without_perm b X HX H)) as E. rewrite app_length in E. lia. Qed.

(** The first block of a set partition of x :: X contains x and k other elements. *)
Lemma set_partition_cons x X P : StronglySorted Z.lt (x :: X) ->
  set_partition (x :: X) P <->
  exists k b, In k (seq 0 (S (length X))) /\ In b (sublists k X) /\
    exists Q, set_partition (without b X) Q /\ P = (x :: b) :: Q.
Proof.
  intros HX. inversion_clear HX as [|? ? HX' Hf]. rewrite Forall_forall in Hf. split.
  - intros (H1 & H2 & H3). destruct P as [|b0 P]; [apply Permutation_nil_cons in H3; destruct H3|].
    inversion_clear H1 as [|? ? [H4 H5] H6]. inversion_clear H2 as [|? ? H7 H8]. destruct b0 as [|y b]; [congruence|].
    inversion_clear H5 as [|? ? H9 H10]. rewrite Forall_forall in H6, H8, H10. cbn [hd] in H8.
    assert (y = x).
    { assert (Hin : In x (concat ((y :: b) :: P))) by (eapply Permutation_in; [symmetry; exact H3|left; reflexivity]).
      assert (Hy : x <= y).
      { assert (Hy : In y (x :: X)) by (eapply Permutation_in; [exact H3|left; reflexivity]). destruct Hy as [->|Hy]; [lia|]. specialize (Hf y Hy). lia. }
      cbn [concat] in Hin. apply in_app_iff in Hin. destruct Hin as [[Hin|Hin]|Hin]; [exact Hin|specialize (H10 x Hin); lia|].
      apply in_concat in Hin. destruct Hin as (c & Hc & Hx). specialize (H8 c Hc). destruct (H6 c Hc) as [Hc1 Hc2].
      destruct c as [|z c]; [congruence|]. cbn [hd] in H8. inversion_clear Hc2 as [|? ? _ Hc3]. rewrite Forall_forall in Hc3.
      destruct Hx as [->|Hx]; [lia|]. specialize (Hc3 x Hx). lia. }
    subst y. cbn [concat app] in H3. apply Permutation_cons_inv in H3.
    assert (Hb : subseq_of X b).
    { split; [exact H9|]. intros z Hz. eapply Permutation_in; [exact H3|]. apply in_or_app. left. exact Hz. }
    exists (length b), b. split; [apply in_seq; pose proof (Permutation_length H3) as E; rewrite app_length in E; lia|].
    split; [apply sublists_In; [exact HX'|auto]|]. exists P. split; [|reflexivity]. split; [apply Forall_forall; exact H6|].
    split; [exact H7|]. apply (Permutation_app_inv_l b). rewrite H3. symmetry. apply without_perm; assumption.
  - intros (k & b & Hk & Hb & Q & (Q1 & Q2 & Q3) & ->). apply sublists_In in Hb; [|exact HX']. destruct Hb as [Hb Hl].
    pose proof (without_perm b X HX' Hb) as HP. destruct Hb as [Hb1 Hb2]. split; [|split].
    + constructor; [|exact Q1]. split; [discriminate|]. constructor; [exact Hb1|]. apply Forall_forall. intros y Hy. apply Hf, Hb2, Hy.
    + constructor; [exact Q2|]. rewrite Forall_forall in Q1 |- *. intros c Hc. cbn [hd]. destruct (Q1 c Hc) as [Hc1 _].
      destruct c as [|z c]; [congruence|]. cbn [hd]. apply Hf. assert (In z (without b X)).
      { eapply Permutation_in; [exact Q3|]. apply in_concat. exists (z :: c). split; [exact Hc|left; reflexivity]. }
      apply without_In in H. tauto.
    + cbn [concat app]. constructor. rewrite Q3. exact HP.
Qed.

(** Bell's recurrence, with C(n, k) first blocks of size k + 1. *)
Fixpoint bellt (n : nat) : list Z :=
  match n with
  | O => [1]
  | S n' => let t := bellt n' in t ++ [zsum (map (fun k => choose n' k * nth (n' - k) t 0) (seq 0 (S n')))]
  end.
Definition bell (n : nat) : Z := nth n (bellt n) 0.

Lemma bellt_length n : length (bellt n) = S n.
Proof. induction n as [|n IH]; [reflexivity|]. cbn [bellt]. rewrite app_length, IH. cbn. lia. Qed.

Lemma bellt_nth n : forall i, (i <= n)%nat -> nth i (bellt n) 0 = bell i.
Proof.
  induction n as [|n IH]; intros i Hi; [replace i with 0%nat by lia; reflexivity|].
  destruct (Nat.eq_dec i (S n)) as [->|Hne]; [reflexivity|]. cbn [bellt]. rewrite app_nth1 by (rewrite bellt_length; lia). apply IH. lia.
Qed.

Lemma bell_S n : bell (S n) = zsum (map (fun k => choose n k * bell (n - k)) (seq 0 (S n))).
Proof.
  unfold bell at 1. cbn [bellt]. rewrite app_nth2 by (rewrite bellt_length; lia). rewrite bellt_length, Nat.sub_diag. cbn [nth].
  f_equal. apply map_ext_in. intros k Hk. apply in_seq in Hk. rewrite bellt_nth by lia. reflexivity.
Qed.

Lemma zsum_const {A} (c : Z) (l : list A) : zsum (map (fun _ => c) l) = Z.of_nat (length l) * c.
Proof. induction l as [|x l IH]; [reflexivity|]. cbn [map length]. rewrite zsum_cons, IH. lia. Qed.

Theorem number_of_set_partitions : forall n X, length X = n -> StronglySorted Z.lt X -> number_of (set_partition X) (bell n).
Proof.
  intros n. induction n as [n IH] using lt_wf_ind. intros X HL HX. destruct X as [|x X].
  - cbn in HL. subst n. apply (number_of_one _ []). intros P. split.
    + intros (H1 & _ & H3). destruct P as [|b P]; [reflexivity|]. inversion_clear H1 as [|? ? [H4 _] _].
      symmetry in H3. apply Permutation_nil in H3. cbn in H3. destruct b; [congruence|discriminate].
    + intros ->. repeat split; constructor.
  - destruct n as [|n]; [discriminate|]. injection HL as HL. pose proof HX as HX0. inversion_clear HX0 as [|? ? HX' Hf].
    rewrite bell_S.
    apply (number_of_ext (fun P => exists k, In k (seq 0 (S n)) /\ exists b, In b (sublists k X) /\
       exists Q, set_partition (without b X) Q /\ P = (x :: b) :: Q)).
    { intros P. rewrite (set_partition_cons x X P HX), HL. split; [intros (k & Hk & b & H)|intros (k & b & Hk & H)]; exists k; [exists b; auto|split; [exact Hk|exists b; exact H]]. }
    apply number_of_sum; [apply seq_NoDup| |].
    + intros k Hk. apply in_seq in Hk. rewrite <- HL at 1. rewrite <- sublists_length.
      rewrite <- (zsum_const (bell (n - k)) (sublists k X)).
      apply number_of_sum; [apply sublists_NoDup, HX'| |].
      * intros b Hb. apply sublists_In in Hb; [|exact HX']. destruct Hb as [Hb Hbl].
        apply (number_of_bij (set_partition (without b X)) _ (cons (x :: b)) (@tl (list Z))).
        -- intros Q HQ. split; [exists Q; auto|reflexivity].
        -- intros P (Q & HQ & ->). split; [exact HQ|reflexivity].
        -- apply IH; [lia| |apply without_sorted, HX']. rewrite without_length by assumption. lia.
      * intros b b' P _ _ (Q & _ & ->) (Q' & _ & E). injection E as -> _. reflexivity.
    + intros k k' P _ _ (b & Hb & Q & _ & ->) (b' & Hb' & Q' & _ & E). injection E as -> _.
      apply sublists_In in Hb; [|exact HX']. apply sublists_In in Hb'; [|exact HX']. destruct Hb as [_ <-]. destruct Hb' as [_ <-]. reflexivity.
Qed.

(** ** The code *)
Lemma choose_step n k : (k < n)%nat -> choose n k * (Z.of_nat n - Z.of_nat k) = choose n (S k) * Z.of_nat (S k).
Proof.
  intros H. pose proof (choose_fact n k ltac:(lia)) as E1. pose proof (choose_fact n (S k) ltac:(lia)) as E2.
  replace (n - k)%nat with (S (n - S k)) in E1 by lia. cbn [zf] in E1, E2.
  pose proof (zf_pos k) as P1. pose proof (zf_pos (n - S k)) as P2.
  apply (Z.mul_reg_r _ _ (zf k * zf (n - S k))); [clear - P1 P2; nia|].
  replace (Z.of_nat n - Z.of_nat k) with (Z.of_nat (S (n - S k))) by lia.
  transitivity (zf n); [rewrite <- E1; ring|rewrite <- E2; ring].
Qed.

Lemma zrange_seq a k : zrange a (a + Z.of_nat k) = map (fun i => a + Z.of_nat i) (seq 0 k).
Proof. unfold zrange. replace (Z.to_nat (a + Z.of_nat k - a)) with k by lia. reflexivity. Qed.

Lemma bell_inner_ok B (n : nat) : (n < length B)%nat -> (forall i, (i <= n)%nat -> nth i B 0 = bell i) ->
  bell_inner B (Z.of_nat (S n)) = Ret (bell (S n)).
Proof.
  intros HL HB. unfold bell_inner. rewrite bell_S.
  set (body := fun '(coeff, value) k => _).
  assert (G : forall m k c v, (k + m = S n)%nat -> (m <> 0%nat -> c = choose n k) ->
    exists c', foldM body (map (fun i => 1 + Z.of_nat i) (seq k m)) (c, v) =
      Ret (c', v + zsum (map (fun k => choose n k * bell (n - k)) (seq k m)))).
  { induction m as [|m IH]; intros k c v Hk Hc.
    - exists c. cbn. do 2 f_equal. lia.
    - rewrite Hc by lia. cbn [seq map foldM]. unfold body at 1. rewrite pyget_at by lia.
      replace (at_ B (Z.of_nat (S n) - (1 + Z.of_nat k))) with (bell (n - k)).
      2:{ unfold at_. rewrite <- HB by lia. f_equal. lia. }
      cbn [bind]. unfold pydiv. destruct (Z.eqb_spec (1 + Z.of_nat k) 0); [lia|]. cbn [bind].
      destruct (IH (S k) (choose n k * (Z.of_nat (S n) - (1 + Z.of_nat k)) / (1 + Z.of_nat k)) (v + choose n k * bell (n - k))) as (c' & E).
      + lia.
      + intros Hm. replace (Z.of_nat (S n) - (1 + Z.of_nat k)) with (Z.of_nat n - Z.of_nat k) by lia.
        rewrite choose_step by lia. replace (1 + Z.of_nat k) with (Z.of_nat (S k)) by lia. apply Z.div_mul. lia.
      + exists c'. rewrite E, zsum_cons. do 2 f_equal. lia. }
  replace (Z.of_nat (S n) + 1) with (1 + Z.of_nat (S n)) by lia. rewrite zrange_seq.
  destruct (G (S n) 0%nat 1 0 eq_refl (fun _ => eq_sym (choose_0 n))) as (c' & E). rewrite E. cbn [bind]. reflexivity.
Qed.

Theorem bell_number_ok (n : nat) : bell_number (Z.of_nat n) = Ret (bell n).
Proof.
  unfold bell_number. destruct (Z.ltb_spec (Z.of_nat n) 0); [lia|].
  replace (Z.to_nat (Z.of_nat n + 1)) with (S n) by lia.
  change (pyset (repeat 0 (S n)) 0 1) with (Ret (1 :: repeat 0 n)). cbn [bind].
  set (body := fun B i => _).
  assert (G : forall m, (m <= n)%nat -> exists B, foldM body (zrange 1 (Z.of_nat m + 1)) (1 :: repeat 0 n) = Ret B /\ length B = S n /\
    forall i, (i <= m)%nat -> nth i B 0 = bell i).
  { induction m as [|m IH]; intros Hm.
    - exists (1 :: repeat 0 n). split; [reflexivity|]. split; [cbn [length]; rewrite repeat_length; reflexivity|].
      intros i Hi. replace i with 0%nat by lia. reflexivity.
    - destruct IH as (B & E & L & HB); [lia|]. replace (Z.of_nat (S m) + 1) with (Z.of_nat m + 1 + 1) by lia.
      rewrite zrange_snoc, foldM_app by lia. rewrite E. cbn [bind foldM]. unfold body. cbv beta.
      replace (Z.of_nat m + 1) with (Z.of_nat (S m)) by lia. rewrite (bell_inner_ok B m) by (lia || exact HB). cbn [bind].
      rewrite pyset_upd by lia. cbn [bind]. eexists. split; [reflexivity|]. split; [rewrite upd_length; exact L|].
      intros i Hi. rewrite upd_nth by lia. rewrite Nat2Z.id. destruct (Nat.eqb_spec i (S m)) as [->|Hne]; [reflexivity|]. apply HB. lia. }
  destruct (G n (le_n n)) as (B & E & L & HB). rewrite E. cbn [bind]. rewrite (pyget_nth B _ 0) by lia. rewrite Nat2Z.id, HB by lia. reflexivity.
Qed.

(** ** Bipartitions *)

(** Multisets of nonzero vectors of naturals, as lists sorted in decreasing
    lexicographic order of the vectors. *)
Definition vec := (Z * Z)%type.
Definition vle (a b : vec) : Prop := fst a < fst b \/ (fst a = fst b /\ snd a <= snd b).
Definition vsum (l : list vec) : vec := (zsum (map fst l), zsum (map snd l)).
Definition vok (a : vec) : Prop := 0 <= fst a /\ 0 <= snd a /\ a <> (0, 0).

Definition bipartition (m n : Z) (l : list vec) : Prop :=
  Forall vok l /\ StronglySorted (fun a b => vle b a) l /\ vsum l = (m, n).

(** The same with parts from a given list, largest first. *)
Definition bip_from (vs : list vec) (t : vec) (l : list vec) : Prop :=
  Forall (fun a => In a vs) l /\ StronglySorted (fun a b => vle b a) l /\ vsum l = t.

Definition vleb (a b : vec) : bool := (fst a <? fst b) || ((fst a =? fst b) && (snd a <=? snd b)).

Lemma vleb_spec a b : vleb a b = true <-> vle a b.
Proof.
  unfold vleb, vle. rewrite orb_true_iff, andb_true_iff, Z.ltb_lt, Z.eqb_eq, Z.leb_le. reflexivity.
Qed.

Lemma vle_tot a b : vle a b \/ vle b a.
Proof. unfold vle. lia. Qed.
Lemma vle_trans a b c : vle a b -> vle b c -> vle a c.
Proof. unfold vle. lia. Qed.
Lemma vle_antisym a b : vle a b -> vle b a -> a = b.
Proof. destruct a, b. unfold vle. cbn. intros. f_equal; lia. Qed.

Lemma vsum_cons a l : vsum (a :: l) = (fst a + fst (vsum l), snd a + snd (vsum l)).
Proof. reflexivity. Qed.

Lemma vsum_perm l l' : Permutation l l' -> vsum l = vsum l'.
Proof. induction 1; rewrite ?vsum_cons; cbn [fst snd]; try congruence. f_equal; lia. Qed.

Notation vsorted := (StronglySorted (fun a b => vle b a)).

Lemma vsorted_perm : forall l l', vsorted l -> vsorted l' -> Permutation l l' -> l = l'.
Proof.
  induction l as [|a l IH]; intros l' H H' P.
  - apply Permutation_nil in P. congruence.
  - destruct l' as [|b l']; [symmetry in P; apply Permutation_nil in P; discriminate|].
    inversion_clear H as [|? ? H1 H2]. inversion_clear H' as [|? ? H3 H4]. rewrite Forall_forall in H2, H4.
    assert (a = b).
    { assert (Ha : In a (b :: l')) by (eapply Permutation_in; [exact P|left; reflexivity]).
      assert (Hb : In b (a :: l)) by (eapply Permutation_in; [symmetry; exact P|left; reflexivity]).
      destruct Ha as [->|Ha]; [reflexivity|]. destruct Hb as [->|Hb]; [reflexivity|]. apply vle_antisym; auto. }
    subst b. f_equal. apply IH; [exact H1|exact H3|]. exact (Permutation_cons_inv P).
Qed.

Fixpoint vinsert (v : vec) (l : list vec) : list vec :=
  match l with [] => [v] | a :: l' => if vleb a v then v :: l else a :: vinsert v l' end.

Lemma vinsert_perm v l : Permutation (vinsert v l) (v :: l).
Proof. induction l as [|a l IH]; cbn; [reflexivity|]. destruct (vleb a v); [reflexivity|]. rewrite IH. constructor. Qed.

Lemma vinsert_sorted v l : vsorted l -> vsorted (vinsert v l).
Proof.
  induction 1 as [|a l H IH F]; cbn; [repeat constructor|]. destruct (vleb a v) eqn:E.
  - apply vleb_spec in E. constructor; [constructor; assumption|]. constructor; [exact E|].
    rewrite Forall_forall in F |- *. intros b Hb. apply (vle_trans _ a); auto.
  - assert (Hv : vle v a).
    { destruct (vle_tot a v) as [H'|H']; [apply vleb_spec in H'; congruence|exact H']. }
    constructor; [exact IH|]. rewrite Forall_forall in F |- *. intros b Hb. apply (Permutation_in _ (vinsert_perm v l)) in Hb.
    destruct Hb as [<-|Hb]; auto.
Qed.

Definition vec_dec (a b : vec) : {a = b} + {a <> b}.
Proof. decide equality; apply Z.eq_dec. Defined.

Fixpoint vremove (v : vec) (l : list vec) : list vec :=
  match l with [] => [] | a :: l' => if vec_dec a v then l' else a :: vremove v l' end.

Lemma vremove_perm v l : In v l -> Permutation (v :: vremove v l) l.
Proof.
  induction l as [|a l IH]; [intros []|]. cbn. destruct (vec_dec a v) as [->|Hne]; [reflexivity|].
  intros [->|H]; [congruence|]. rewrite perm_swap, (IH H). reflexivity.
Qed.

Lemma vremove_incl v l x : In x (vremove v l) -> In x l.
Proof. induction l as [|a l IH]; [intros []|]. cbn. destruct (vec_dec a v); [auto|]. intros [->|H]; auto. Qed.

Lemma vremove_sorted v l : vsorted l -> vsorted (vremove v l).
Proof.
  induction 1 as [|a l H IH F]; cbn; [constructor|]. destruct (vec_dec a v); [exact H|]. constructor; [exact IH|].
  rewrite Forall_forall in F |- *. intros b Hb. apply F, (vremove_incl v), Hb.
Qed.

(** One more kind of part v: l has no v, or one can be removed. *)
Lemma bip_split v vs (t : vec) l : ~ In v vs ->
  bip_from (vs ++ [v]) t l <->
  bip_from vs t l \/ (exists l', bip_from (vs ++ [v]) (fst t - fst v, snd t - snd v) l' /\ l = vinsert v l').
Proof.
  intros Hv. split.
  - intros (H1 & H2 & H3). destruct (in_dec vec_dec v l) as [Hin|Hin].
    + right. exists (vremove v l). pose proof (vremove_perm v l Hin) as P. split.
      * split; [|split].
        -- rewrite Forall_forall in H1 |- *. intros a Ha. apply H1, (vremove_incl v), Ha.
        -- apply vremove_sorted, H2.
        -- apply vsum_perm in P. rewrite H3, vsum_cons in P. destruct t. injection P as P1 P2. change (zsum (map fst (vremove v l))) with (fst (vsum (vremove v l))) in P1. change (zsum (map snd (vremove v l))) with (snd (vsum (vremove v l))) in P2. cbn [fst snd].
           destruct (vsum (vremove v l)). cbn [fst snd] in *. f_equal; lia.
      * apply vsorted_perm; [exact H2|apply vinsert_sorted, vremove_sorted, H2|]. rewrite vinsert_perm. symmetry. exact P.
    + left. split; [|split; assumption]. rewrite Forall_forall in H1 |- *. intros a Ha. specialize (H1 a Ha). apply in_app_iff in H1.
      destruct H1 as [H1|[<-|[]]]; [exact H1|contradiction].
  - intros [(H1 & H2 & H3)|(l' & (H1 & H2 & H3) & ->)].
    + split; [|split; assumption]. eapply Forall_impl; [|exact H1]. intros a Ha. apply in_or_app. auto.
    + split; [|split].
      * rewrite Forall_forall in H1 |- *. intros a Ha. apply (Permutation_in _ (vinsert_perm v l')) in Ha.
        destruct Ha as [<-|Ha]; [apply in_or_app; right; left; reflexivity|auto].
      * apply vinsert_sorted, H2.
      * rewrite (vsum_perm _ _ (vinsert_perm v l')), vsum_cons, H3. cbn [fst snd]. destruct t. cbn [fst snd]. f_equal; lia.
Qed.

Lemma bip_from_nonneg vs t l : (forall a, In a vs -> vok a) -> bip_from vs t l -> 0 <= fst t /\ 0 <= snd t.
Proof.
  intros Hv (H1 & _ & <-). induction H1 as [|a l Ha _ IH]; [cbn; lia|]. rewrite vsum_cons. cbn [fst snd]. specialize (Hv a Ha).
  unfold vok in Hv. lia.
Qed.

(** The table p holds these counts for all targets. *)
Definition bip_table (m n : Z) (vs : list vec) (p : list (list Z)) : Prop :=
  len p = m + 1 /\ Forall (fun r => len r = n + 1) p /\
  forall k l, 0 <= k <= m -> 0 <= l <= n -> exists v, get2 p k l = Ret v /\ number_of (bip_from vs (k, l)) v.

Lemma get2_at p k l : 0 <= k < len p -> 0 <= l < len (nth (Z.to_nat k) p []) ->
  get2 p k l = Ret (nth (Z.to_nat l) (nth (Z.to_nat k) p []) 0).
Proof. intros Hk Hl. unfold get2. rewrite (pyget_nth p k []) by exact Hk. cbn [bind]. apply pyget_nth, Hl. Qed.

Lemma set2_get2 m n (p : list (list Z)) k l v : len p = m + 1 -> Forall (fun r => len r = n + 1) p -> 0 <= k <= m -> 0 <= l <= n ->
  exists p', set2 p k l v = Ret p' /\ len p' = m + 1 /\ Forall (fun r => len r = n + 1) p' /\
  forall k' l', 0 <= k' <= m -> 0 <= l' <= n -> get2 p' k' l' = if (k' =? k) && (l' =? l) then Ret v else get2 p k' l'.
Proof.
  intros Hm Hn Hk Hl. unfold set2. rewrite (pyget_nth p k []) by lia. cbn [bind].
  assert (Hr : forall j, 0 <= j <= m -> len (nth (Z.to_nat j) p []) = n + 1).
  { intros j Hj. rewrite Forall_forall in Hn. apply Hn, nth_In. lia. }
  rewrite pyset_upd by (rewrite Hr; lia). cbn [bind]. rewrite pyset_upd by lia.
  eexists. split; [reflexivity|]. split; [rewrite upd_length; exact Hm|].
  assert (Hn' : Forall (fun r => len r = n + 1) (upd p (Z.to_nat k) (upd (nth (Z.to_nat k) p []) (Z.to_nat l) v))).
  { apply Forall_forall. intros r Hr'. apply (In_nth _ _ []) in Hr'. destruct Hr' as (j & Hj & <-). rewrite upd_length in Hj.
    rewrite upd_nth by lia. destruct (Nat.eqb j (Z.to_nat k)).
    - rewrite upd_length. apply Hr. lia.
    - rewrite Forall_forall in Hn. apply Hn, nth_In, Hj. }
  split; [exact Hn'|]. intros k' l' Hk' Hl'.
  rewrite !get2_at.
  - rewrite upd_nth by lia. destruct (Nat.eqb_spec (Z.to_nat k') (Z.to_nat k)) as [E|E].
    + assert (k' = k) by lia. subst k'. rewrite Z.eqb_refl. cbn [andb]. rewrite upd_nth by (specialize (Hr k Hk); lia).
      destruct (Nat.eqb_spec (Z.to_nat l') (Z.to_nat l)) as [E'|E']; destruct (Z.eqb_spec l' l); try lia; reflexivity.
    + destruct (Z.eqb_spec k' k); [lia|]. reflexivity.
  - lia.
  - rewrite Hr; lia.
  - rewrite upd_length. lia.
  - rewrite Forall_forall in Hn'. rewrite Hn'; [lia|]. apply nth_In. rewrite upd_length. lia.
Qed.

(** Row-major order of the updates: (k', l') before (k, l). *)
Definition done (k l k' l' : Z) : bool := (k' <? k) || ((k' =? k) && (l' <? l)).

Lemma bip_add_ok m n i j vs p : 0 <= i <= m -> 0 <= j <= n -> 0 < i + j ->
  (forall a, In a vs -> vok a) -> ~ In (i, j) vs -> bip_table m n vs p ->
  exists p', bip_add m n i j p = Ret p' /\ bip_table m n (vs ++ [(i, j)]) p'.
Proof.
  intros Hi Hj Hij Hvs Hnin HT. unfold bip_add.
  set (vs' := vs ++ [(i, j)]).
  assert (Hvs' : forall a, In a vs' -> vok a).
  { intros a Ha. apply in_app_iff in Ha. destruct Ha as [Ha|[<-|[]]]; [apply Hvs, Ha|]. repeat split; cbn; try lia. intros E. injection E. lia. }
  (* state invariant: entries before (k, l) with k' >= i, l' >= j are updated *)
  set (Inv := fun (k l : Z) (p : list (list Z)) => len p = m + 1 /\ Forall (fun r => len r = n + 1) p /\
    forall k' l', 0 <= k' <= m -> 0 <= l' <= n -> exists v, get2 p k' l' = Ret v /\
      number_of (bip_from (if (i <=? k') && (j <=? l') && done k l k' l' then vs' else vs) (k', l')) v).
  assert (LOW : forall k' l' v, (k' < i \/ l' < j) -> number_of (bip_from vs (k', l')) v -> number_of (bip_from vs' (k', l')) v).
  { intros k' l' v Hlow Hv. eapply number_of_ext; [|exact Hv]. intros x. unfold vs'. rewrite bip_split by exact Hnin.
    split; [auto|]. intros [H|(l0 & H & _)]; [exact H|]. exfalso. apply bip_from_nonneg in H; [|exact Hvs']. cbn in H. lia. }
  assert (INV : forall x, vsorted x -> vremove (i, j) (vinsert (i, j) x) = x).
  { intros x Hx. apply vsorted_perm; [apply vremove_sorted, vinsert_sorted, Hx|exact Hx|].
    apply (Permutation_cons_inv (a := (i, j))). transitivity (vinsert (i, j) x); [|apply vinsert_perm]. apply vremove_perm.
    apply (Permutation_in _ (Permutation_sym (vinsert_perm (i, j) x))). left. reflexivity. }
  assert (INNER : forall k, i <= k <= m -> forall c l p, Z.of_nat c = n + 1 - l -> j <= l -> Inv k l p ->
    exists p', foldM (fun p l => do a <- get2 p k l; do b <- get2 p (k - i) (l - j); set2 p k l (a + b)) (zrange l (n + 1)) p = Ret p' /\
      Inv k (n + 1) p').
  { intros k Hk. induction c as [|c IH]; intros l q Hc Hl Hq.
    - rewrite zrange_nil by lia. exists q. split; [reflexivity|]. assert (l = n + 1) by lia. subst l. exact Hq.
    - rewrite zrange_cons by lia. cbn [foldM]. destruct Hq as (Q1 & Q2 & Q3).
      destruct (Q3 k l ltac:(lia) ltac:(lia)) as (a & Ea & Na). rewrite Ea. cbn [bind].
      destruct (Q3 (k - i) (l - j) ltac:(lia) ltac:(lia)) as (b & Eb & Nb). rewrite Eb. cbn [bind].
      destruct (set2_get2 m n q k l (a + b) Q1 Q2 ltac:(lia) ltac:(lia)) as (q' & Es & S1 & S2 & S3). rewrite Es. cbn [bind].
      apply IH; [lia|lia|]. split; [exact S1|]. split; [exact S2|]. intros k' l' Hk' Hl'. rewrite S3 by assumption.
      destruct (Z.eqb_spec k' k) as [->|Hkk]; [destruct (Z.eqb_spec l' l) as [->|Hll]|]; cbn [andb].
      + exists (a + b). split; [reflexivity|].
        assert (D : done k (l + 1) k l = true).
        { unfold done. rewrite Z.eqb_refl. destruct (Z.ltb_spec l (l + 1)); [|lia]. apply orb_true_r. }
        rewrite D. destruct (Z.leb_spec i k); [|lia]. destruct (Z.leb_spec j l); [|lia]. cbn [andb].
        assert (D' : done k l k l = false).
        { unfold done. rewrite !Z.ltb_irrefl, Z.eqb_refl. reflexivity. }
        rewrite D' in Na. rewrite andb_false_r in Na.
        apply (number_of_ext (fun x => bip_from vs (k, l) x \/ (exists l', bip_from vs' (k - i, l - j) l' /\ x = vinsert (i, j) l'))).
        { intros x. unfold vs'. rewrite bip_split by exact Hnin. reflexivity. }
        apply number_of_or.
        * intros x (H1 & _) (l' & _ & ->). rewrite Forall_forall in H1. apply Hnin, H1.
          apply (Permutation_in _ (Permutation_sym (vinsert_perm (i, j) l'))). left. reflexivity.
        * exact Na.
        * apply (number_of_bij (bip_from vs' (k - i, l - j)) _ (vinsert (i, j)) (vremove (i, j))).
          -- intros x Hx. split; [exists x; auto|]. apply INV, Hx.
          -- intros x (l' & Hx & ->). rewrite INV by apply Hx. split; [exact Hx|reflexivity].
          -- destruct ((i <=? k - i) && (j <=? l - j) && done k l (k - i) (l - j)) eqn:EE; [exact Nb|].
             apply LOW; [|exact Nb]. rewrite !andb_false_iff in EE. destruct EE as [[EE|EE]|EE].
             ++ apply Z.leb_gt in EE. lia.
             ++ apply Z.leb_gt in EE. lia.
             ++ exfalso. unfold done in EE. apply orb_false_iff in EE. destruct EE as [EE1 EE2]. apply Z.ltb_ge in EE1.
                apply andb_false_iff in EE2. destruct EE2 as [EE2|EE2]; [apply Z.eqb_neq in EE2|apply Z.ltb_ge in EE2]; lia.
      + destruct (Q3 k l' Hk' Hl') as (w & Ew & Nw). exists w. split; [exact Ew|].
        replace (done k (l + 1) k l') with (done k l k l'); [exact Nw|].
        unfold done. destruct (Z.ltb_spec l' l); destruct (Z.ltb_spec l' (l + 1)); try lia; reflexivity.
      + destruct (Q3 k' l' Hk' Hl') as (w & Ew & Nw). exists w. split; [exact Ew|].
        replace (done k (l + 1) k' l') with (done k l k' l'); [exact Nw|].
        unfold done. destruct (Z.eqb_spec k' k); [lia|]. reflexivity. }
  assert (OUTER : forall c k p, Z.of_nat c = m + 1 - k -> i <= k -> Inv k j p ->
    exists p', foldM (fun p k => foldM (fun p l => do a <- get2 p k l; do b <- get2 p (k - i) (l - j); set2 p k l (a + b)) (zrange j (n + 1)) p)
      (zrange k (m + 1)) p = Ret p' /\ Inv (m + 1) j p').
  { induction c as [|c IH]; intros k q Hc Hk Hq.
    - rewrite (zrange_nil k (m + 1)) by lia. exists q. split; [reflexivity|]. assert (k = m + 1) by lia. subst k. exact Hq.
    - rewrite (zrange_cons k (m + 1)) by lia. cbn [foldM].
      destruct (INNER k ltac:(lia) (Z.to_nat (n + 1 - j)) j q ltac:(lia) ltac:(lia) Hq) as (q' & E & Hq'). rewrite E. cbn [bind].
      apply IH; [lia|lia|]. destruct Hq' as (Q1 & Q2 & Q3). split; [exact Q1|]. split; [exact Q2|]. intros k' l' Hk' Hl'.
      destruct (Q3 k' l' Hk' Hl') as (w & Ew & Nw). exists w. split; [exact Ew|].
      destruct (Z.leb_spec j l') as [Hjl|Hjl]; [|rewrite !andb_false_r in *; exact Nw].
      replace (done (k + 1) j k' l') with (done k (n + 1) k' l'); [exact Nw|].
      unfold done. destruct (Z.ltb_spec k' k); destruct (Z.eqb_spec k' k); destruct (Z.ltb_spec l' (n + 1));
        destruct (Z.ltb_spec k' (k + 1)); destruct (Z.eqb_spec k' (k + 1)); destruct (Z.ltb_spec l' j); try lia; reflexivity. }
  destruct (OUTER (Z.to_nat (m + 1 - i)) i p) as (p' & E & Q1 & Q2 & Q3); [lia|lia| |].
  - destruct HT as (T1 & T2 & T3). split; [exact T1|]. split; [exact T2|]. intros k' l' Hk' Hl'.
    destruct (T3 k' l' Hk' Hl') as (w & Ew & Nw). exists w. split; [exact Ew|].
    replace ((i <=? k') && (j <=? l') && done i j k' l') with false; [exact Nw|]. symmetry.
    unfold done. destruct (Z.leb_spec i k'); destruct (Z.leb_spec j l'); destruct (Z.ltb_spec k' i); destruct (Z.eqb_spec k' i);
      destruct (Z.ltb_spec l' j); try lia; reflexivity.
  - exists p'. split; [exact E|]. split; [exact Q1|]. split; [exact Q2|]. intros k' l' Hk' Hl'.
    destruct (Q3 k' l' Hk' Hl') as (w & Ew & Nw). exists w. split; [exact Ew|].
    destruct (Z.leb_spec i k') as [H1|H1]; [destruct (Z.leb_spec j l') as [H2|H2]|]; cbn [andb] in Nw.
    + replace (done (m + 1) j k' l') with true in Nw; [exact Nw|]. unfold done. destruct (Z.ltb_spec k' (m + 1)); [reflexivity|lia].
    + apply LOW; [lia|exact Nw].
    + apply LOW; [lia|exact Nw].
Qed.

Lemma bip_from_ext vs vs' t l : (forall a, In a vs <-> In a vs') -> bip_from vs t l <-> bip_from vs' t l.
Proof. intros H. unfold bip_from. split; intros (H1 & H2 & H3); (split; [|auto]); eapply Forall_impl; try exact H1; intros a Ha; apply H, Ha. Qed.

Lemma bip_table_ext m n vs vs' p : (forall a, In a vs <-> In a vs') -> bip_table m n vs p -> bip_table m n vs' p.
Proof.
  intros H (H1 & H2 & H3). split; [exact H1|]. split; [exact H2|]. intros k l Hk Hl. destruct (H3 k l Hk Hl) as (v & Ev & Nv).
  exists v. split; [exact Ev|]. eapply number_of_ext; [|exact Nv]. intros x. apply bip_from_ext, H.
Qed.

(** The vectors treated once the loop has passed (i, j). *)
Definition treated (m n i j : Z) (a : vec) : bool :=
  (0 <? fst a + snd a) && ((fst a + snd a =? 1) || (fst a <? i) || ((fst a =? i) && (snd a <? j))).
Definition grid (m n : Z) : list vec := flat_map (fun x => map (fun y => (x, y)) (zrange 0 (n + 1))) (zrange 0 (m + 1)).
Definition vecs (m n i j : Z) : list vec := filter (treated m n i j) (grid m n).

Lemma grid_In m n a : In a (grid m n) <-> 0 <= fst a <= m /\ 0 <= snd a <= n.
Proof.
  unfold grid. rewrite in_flat_map. destruct a as [x y]. cbn [fst snd]. split.
  - intros (x' & Hx & Hy). apply in_map_iff in Hy. destruct Hy as (y' & E & Hy). injection E as -> ->.
    apply zrange_In in Hx. apply zrange_In in Hy. lia.
  - intros H. exists x. split; [apply zrange_In; lia|]. apply in_map_iff. exists y. split; [reflexivity|apply zrange_In; lia].
Qed.

Lemma vecs_vok m n i j a : In a (vecs m n i j) -> vok a.
Proof.
  unfold vecs. rewrite filter_In, grid_In. intros [H1 H2]. apply andb_true_iff in H2. destruct H2 as [H2 _]. apply Z.ltb_lt in H2.
  split; [lia|]. split; [lia|]. intros ->. cbn in H2. lia.
Qed.

Lemma bip_start m n : 0 <= m -> 0 <= n ->
  bip_table m n (vecs m n 0 0) (map (fun _ => repeat 1 (Z.to_nat (n + 1))) (zrange 0 (m + 1))).
Proof.
  intros Hm Hn. split; [rewrite map_length, zrange_length; lia|]. split.
  { apply Forall_forall. intros r Hr. apply in_map_iff in Hr. destruct Hr as (_ & <- & _). rewrite repeat_length. lia. }
  intros k l Hk Hl. exists 1.
  assert (HR : nth (Z.to_nat k) (map (fun _ => repeat 1 (Z.to_nat (n + 1))) (zrange 0 (m + 1))) [] = repeat 1 (Z.to_nat (n + 1))).
  { rewrite nth_indep with (d' := repeat 1 (Z.to_nat (n + 1))) by (rewrite map_length, zrange_length; lia).
    exact (map_nth (fun _ => repeat 1 (Z.to_nat (n + 1))) (zrange 0 (m + 1)) 0 (Z.to_nat k)). }
  split.
  - rewrite get2_at; rewrite ?HR; rewrite ?map_length, ?zrange_length, ?repeat_length; try lia.
    f_equal. apply (repeat_spec (Z.to_nat (n + 1))). apply nth_In. rewrite repeat_length. lia.
  - set (x0 := repeat (1, 0) (Z.to_nat k) ++ repeat (0, 1) (Z.to_nat l) : list vec).
    assert (Hrep : forall (c : vec) t, vsorted (repeat c t)).
    { intros c. induction t; constructor; [assumption|]. apply Forall_forall. intros b Hb. apply repeat_spec in Hb. subst. unfold vle. lia. }
    assert (Hs : vsorted x0).
    { apply SSorted_app; [apply Hrep|apply Hrep|]. intros a b Ha Hb. apply repeat_spec in Ha. apply repeat_spec in Hb. subst. unfold vle. cbn. lia. }
    assert (Hvs : forall u v, vsum (repeat (1, 0) u ++ repeat (0, 1) v) = (Z.of_nat u, Z.of_nat v)).
    { induction u as [|u IH]; intros v.
      - cbn [repeat app]. induction v as [|v IHv]; [reflexivity|]. cbn [repeat]. rewrite vsum_cons, IHv. cbn [fst snd]. f_equal; lia.
      - cbn [repeat app]. rewrite vsum_cons, IH. cbn [fst snd]. f_equal; lia. }
    assert (Hin : forall a, In a (vecs m n 0 0) -> a = (1, 0) \/ a = (0, 1)).
    { intros [x y] Ha. unfold vecs in Ha. rewrite filter_In, grid_In in Ha. destruct Ha as [H1 H2]. unfold treated in H2. cbn [fst snd] in *.
      rewrite !andb_true_iff, !orb_true_iff, andb_true_iff, !Z.ltb_lt, !Z.eqb_eq in H2.
      destruct (Z.eq_dec x 0) as [->|]; [right|left]; f_equal; lia. }
    apply (number_of_one _ x0). intros x. split.
    + intros (H1 & H2 & H3). apply vsorted_perm; [exact H2|exact Hs|].
      assert (G : forall x, Forall (fun a => In a (vecs m n 0 0)) x -> exists u v, Permutation x (repeat (1, 0) u ++ repeat (0, 1) v)).
      { clear - Hin. induction 1 as [|a x Ha _ IH]; [exists 0%nat, 0%nat; constructor|]. destruct IH as (u & v & IH).
        destruct (Hin a Ha) as [-> | ->]; [exists (S u), v|exists u, (S v)].
        - cbn [repeat app]. constructor. exact IH.
        - cbn [repeat]. rewrite IH. apply Permutation_middle. }
      destruct (G x H1) as (u & v & P). pose proof (vsum_perm _ _ P) as E. rewrite H3, Hvs in E. injection E as -> ->.
      unfold x0. rewrite !Nat2Z.id. exact P.
    + intros ->. split; [|split; [exact Hs|]].
      * apply Forall_forall. intros a Ha. unfold x0 in Ha. apply in_app_iff in Ha. unfold vecs. rewrite filter_In, grid_In.
        assert (E : (a = (1, 0) /\ 0 < k) \/ (a = (0, 1) /\ 0 < l)).
        { destruct Ha as [Ha|Ha]; pose proof (repeat_spec _ _ _ Ha) as ->; [left|right]; (split; [reflexivity|]).
          - destruct (Z.eq_dec k 0) as [->|]; [destruct Ha|lia].
          - destruct (Z.eq_dec l 0) as [->|]; [destruct Ha|lia]. }
        destruct E as [[-> H]|[-> H]]; cbn [fst snd]; (split; [lia|reflexivity]).
      * unfold x0. rewrite Hvs. f_equal; lia.
Qed.

Lemma treated_next m n i j a : 0 <= i <= m -> 0 <= j <= n -> 1 < i + j ->
  In a (vecs m n i (j + 1)) <-> In a (vecs m n i j ++ [(i, j)]).
Proof.
  intros Hi Hj Hij. rewrite in_app_iff. unfold vecs. rewrite !filter_In, grid_In. unfold treated. destruct a as [x y]. cbn [fst snd In].
  rewrite !andb_true_iff, !orb_true_iff, !andb_true_iff, !Z.ltb_lt, !Z.eqb_eq. split.
  - intros H. destruct (Z.eq_dec x i) as [->|]; [destruct (Z.eq_dec y j) as [->|]|].
    + right. left. reflexivity.
    + left. lia.
    + left. lia.
  - intros [H|[E|[]]]; [lia|]. injection E as <- <-. lia.
Qed.

Lemma treated_skip m n i j a : 0 <= i -> 0 <= j -> i + j <= 1 -> In a (vecs m n i (j + 1)) <-> In a (vecs m n i j).
Proof.
  intros Hi Hj Hij. unfold vecs. rewrite !filter_In, grid_In. unfold treated. destruct a as [x y]. cbn [fst snd].
  rewrite !andb_true_iff, !orb_true_iff, !andb_true_iff, !Z.ltb_lt, !Z.eqb_eq. lia.
Qed.

Lemma treated_row m n i a : In a (vecs m n (i + 1) 0) <-> In a (vecs m n i (n + 1)).
Proof.
  unfold vecs. rewrite !filter_In, grid_In. unfold treated. destruct a as [x y]. cbn [fst snd].
  rewrite !andb_true_iff, !orb_true_iff, !andb_true_iff, !Z.ltb_lt, !Z.eqb_eq. lia.
Qed.

Theorem bipartitions_ok m n : 0 <= m -> 0 <= n -> exists v, bipartitions m n = Ret v /\ number_of (bipartition m n) v.
Proof.
  intros Hm Hn. unfold bipartitions.
  assert (ROW : forall i, 0 <= i <= m -> forall c j p, Z.of_nat c = n + 1 - j -> 0 <= j -> bip_table m n (vecs m n i j) p ->
    exists p', foldM (fun p j => if i + j >? 1 then bip_add m n i j p else Ret p) (zrange j (n + 1)) p = Ret p' /\
      bip_table m n (vecs m n i (n + 1)) p').
  { intros i Hi. induction c as [|c IH]; intros j p Hc Hj Hp.
    - rewrite zrange_nil by lia. exists p. split; [reflexivity|]. assert (j = n + 1) by lia. subst j. exact Hp.
    - rewrite zrange_cons by lia. cbn [foldM]. destruct (Z.gtb_spec (i + j) 1) as [H1|H1].
      + destruct (bip_add_ok m n i j (vecs m n i j) p) as (p' & E & Hp').
        * lia.
        * lia.
        * lia.
        * intros a Ha. apply (vecs_vok m n i j a Ha).
        * unfold vecs. rewrite filter_In. unfold treated. cbn [fst snd]. rewrite !andb_true_iff, !orb_true_iff, andb_true_iff, !Z.ltb_lt, !Z.eqb_eq. lia.
        * exact Hp.
        * rewrite E. cbn [bind]. apply IH; [lia|lia|]. eapply bip_table_ext; [|exact Hp']. intros a. symmetry. apply treated_next; lia.
      + cbn [bind]. apply IH; [lia|lia|]. eapply bip_table_ext; [|exact Hp]. intros a. symmetry. apply treated_skip; lia. }
  assert (ALL : forall c i p, Z.of_nat c = m + 1 - i -> 0 <= i -> bip_table m n (vecs m n i 0) p ->
    exists p', foldM (fun p i => foldM (fun p j => if i + j >? 1 then bip_add m n i j p else Ret p) (zrange 0 (n + 1)) p) (zrange i (m + 1)) p = Ret p' /\
      bip_table m n (vecs m n (m + 1) 0) p').
  { induction c as [|c IH]; intros i p Hc Hi Hp.
    - rewrite (zrange_nil i (m + 1)) by lia. exists p. split; [reflexivity|]. assert (i = m + 1) by lia. subst i. exact Hp.
    - rewrite (zrange_cons i (m + 1)) by lia. cbn [foldM]. destruct (ROW i ltac:(lia) (Z.to_nat (n + 1)) 0 p ltac:(lia) ltac:(lia) Hp) as (p' & E & Hp').
      rewrite E. cbn [bind]. apply IH; [lia|lia|]. eapply bip_table_ext; [|exact Hp']. intros a. symmetry. apply treated_row. }
  destruct (ALL (Z.to_nat (m + 1)) 0 _ ltac:(lia) ltac:(lia) (bip_start m n Hm Hn)) as (p' & E & _ & _ & T).
  rewrite E. cbn [bind]. destruct (T m n) as (v & Ev & Nv); [lia|lia|]. exists v. split; [exact Ev|].
  eapply number_of_ext; [|exact Nv]. intros l. unfold bip_from, bipartition. split; intros (H1 & H2 & H3); (split; [|auto]).
  - eapply Forall_impl; [|exact H1]. intros a Ha. apply (vecs_vok _ _ _ _ _ Ha).
  - assert (B : forall l, Forall vok l -> 0 <= fst (vsum l) /\ 0 <= snd (vsum l)).
    { induction 1 as [|a x Ha _ IH]; [cbn; lia|]. rewrite vsum_cons. cbn [fst snd]. unfold vok in Ha. lia. }
    rewrite Forall_forall in *. intros a Ha. pose proof (H1 a Ha) as (A1 & A2 & A3). unfold vecs. rewrite filter_In, grid_In.
    assert (BD : fst a <= m /\ snd a <= n).
    { apply in_split in Ha. destruct Ha as (u & w & ->). rewrite (vsum_perm _ _ (Permutation_sym (Permutation_middle u w a))), vsum_cons in H3.
      destruct (B (u ++ w)) as [B1 B2].
      - apply Forall_forall. intros b Hb. apply H1. apply in_app_iff in Hb. apply in_or_app. cbn. tauto.
      - destruct (vsum (u ++ w)) as [q1 q2]; cbn [fst snd] in *; injection H3 as H3 H4; lia. }
    split; [lia|]. unfold treated. rewrite !andb_true_iff, !orb_true_iff, !andb_true_iff, !Z.ltb_lt, !Z.eqb_eq.
    split; [|lia]. destruct a as [x y]. cbn [fst snd] in *. destruct (Z.eq_dec x 0) as [->|]; [destruct (Z.eq_dec y 0) as [->|]; [congruence|lia]|lia].
Qed.
