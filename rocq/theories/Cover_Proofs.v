(** * Exact covers by bit vectors *)
From Coq Require Import ZArith List Bool Lia Sorting.Sorted Sorting.Permutation.
From Verif Require Import Base Lists2 Count Gen Cover_Model Cover_Spec.
Import ListNotations.
Open Scope Z_scope.

Lemma lowest_bit_unique v a b : lowest_bit v a -> lowest_bit v b -> a = b.
Proof.
  intros (A1 & A2 & A3) (B1 & B2 & B3). destruct (Z.lt_trichotomy a b) as [H|[H|H]]; [|exact H|].
  - rewrite B3 in A2 by lia. discriminate.
  - rewrite A3 in B2 by lia. discriminate.
Qed.

Lemma land_odd_neg q : Z.land (2 * q + 1) (- (2 * q + 1)) = 1.
Proof.
  replace (- (2 * q + 1)) with (2 * Z.lnot q + 1) by (unfold Z.lnot; lia).
  apply Z.bits_inj'. intros n Hn. rewrite Z.land_spec.
  destruct (Z.eq_dec n 0) as [->|Hn0].
  - rewrite !Z.testbit_odd_0. reflexivity.
  - replace n with (Z.succ (n - 1)) by lia. rewrite !Z.testbit_odd_succ by lia. rewrite Z.lnot_spec by lia.
    rewrite andb_negb_r. replace 1 with (2 * 0 + 1) by lia. rewrite Z.testbit_odd_succ by lia. rewrite Z.testbit_0_l. reflexivity.
Qed.

Lemma two_adic v : 0 < v -> exists j q, 0 <= j /\ 0 <= q /\ v = 2 ^ j * (2 * q + 1).
Proof.
  intros Hv. revert Hv. assert (H0 : 0 <= v \/ v < 0) by lia. destruct H0 as [H0|H0]; [|lia].
  pattern v. apply Zlt_0_ind; [|exact H0]. clear v H0. intros v IH _ Hv.
  destruct (Z.Even_or_Odd v) as [(q & Hq)|(q & Hq)].
  - destruct (IH q) as (j & r & Hj & Hr & E); [lia|lia|]. exists (j + 1), r. split; [lia|]. split; [exact Hr|].
    rewrite Z.pow_add_r by lia. change (2 ^ 1) with 2. lia.
  - exists 0, q. split; [lia|]. split; [lia|]. change (2 ^ 0) with 1. lia.
Qed.

Lemma two_adic_lowest j q : 0 <= j -> lowest_bit (2 ^ j * (2 * q + 1)) j.
Proof.
  intros Hj. rewrite Z.mul_comm. split; [exact Hj|]. split.
  - rewrite Z.mul_pow2_bits by lia. rewrite Z.sub_diag. apply Z.testbit_odd_0.
  - intros i Hi. rewrite Z.mul_pow2_bits_low by lia. reflexivity.
Qed.

Lemma land_neg_lowest v : 0 < v -> exists j, lowest_bit v j /\ Z.land v (- v) = 2 ^ j.
Proof.
  intros Hv. destruct (two_adic v Hv) as (j & q & Hj & Hq & E). exists j. split; [rewrite E; apply two_adic_lowest, Hj|].
  rewrite E. replace (- (2 ^ j * (2 * q + 1))) with (2 ^ j * - (2 * q + 1)) by ring.
  rewrite !(Z.mul_comm (2 ^ j)). rewrite <- !Z.shiftl_mul_pow2 by lia. rewrite <- Z.shiftl_land, land_odd_neg.
  rewrite Z.shiftl_mul_pow2 by lia. lia.
Qed.

Lemma land_neg_iff v j : 0 < v -> 0 <= j -> Z.land v (- v) = 2 ^ j <-> lowest_bit v j.
Proof.
  intros Hv Hj. destruct (land_neg_lowest v Hv) as (k & Hk & E). rewrite E. split.
  - intros H. apply Z.pow_inj_r in H; [|lia|apply Hk|exact Hj]. subst. exact Hk.
  - intros H. rewrite (lowest_bit_unique v j k H Hk). reflexivity.
Qed.

(** The lowest unset bit. *)
Definition lowest_unset (c j : Z) : Prop := 0 <= j /\ Z.testbit c j = false /\ forall i, 0 <= i < j -> Z.testbit c i = true.

Lemma lub_spec c : 0 <= c -> exists j, lowest_unset c j /\ Z.land (Z.lnot c) (c + 1) = 2 ^ j.
Proof.
  intros Hc. destruct (two_adic (c + 1) ltac:(lia)) as (j & q & Hj & Hq & E). exists j.
  assert (Ec : c = 2 * q * 2 ^ j + Z.ones j). { rewrite Z.ones_equiv. unfold Z.pred. nia. }
  assert (Hb : Z.land (2 * q * 2 ^ j) (Z.ones j) = 0).
  { apply Z.bits_inj'. intros n Hn. rewrite Z.land_spec, Z.testbit_0_l. destruct (Z.lt_ge_cases n j) as [H|H].
    - rewrite Z.mul_pow2_bits_low by lia. reflexivity.
    - rewrite Z.ones_spec_high by lia. apply andb_false_r. }
  assert (Es : forall n, 0 <= n -> Z.testbit c n = Z.testbit (2 * q * 2 ^ j) n || Z.testbit (Z.ones j) n).
  { intros n Hn. rewrite <- Z.lor_spec. f_equal. rewrite Ec. rewrite <- Z.lxor_lor by exact Hb. apply Z.add_nocarry_lxor, Hb. }
  split; [split; [exact Hj|split]|].
  - rewrite Es by lia. rewrite Z.mul_pow2_bits by lia. rewrite Z.sub_diag, Z.testbit_even_0, Z.ones_spec_high by lia. reflexivity.
  - intros i Hi. rewrite Es by lia. rewrite Z.ones_spec_low by lia. apply orb_true_r.
  - replace (Z.lnot c) with (- (c + 1)) by (unfold Z.lnot; lia). rewrite Z.land_comm. apply land_neg_iff; [lia|exact Hj|].
    rewrite E. apply two_adic_lowest, Hj.
Qed.

Section Cover.
  Context (ints : list Z) (m : Z).
  Hypothesis Hpos : forall v, In v ints -> 0 < v.
  Hypothesis Hm : 0 <= m.
  Hypothesis Hw : forall v, In v ints -> v < 2 ^ m.

  Notation val i := (nth i ints 0).
  Notation all := (2 ^ m - 1).

  Lemma all_ones : all = Z.ones m.
  Proof. rewrite Z.ones_equiv. unfold Z.pred. lia. Qed.

  Lemma val_In i : (i < length ints)%nat -> In (val i) ints.
  Proof. apply nth_In. Qed.

  Lemma high_bits v b : 0 <= v < 2 ^ m -> m <= b -> Z.testbit v b = false.
  Proof.
    intros Hv Hb. destruct (Z.eq_dec v 0) as [->|H0]; [apply Z.testbit_0_l|].
    apply Z.bits_above_log2; [lia|]. apply Z.lt_le_trans with m; [|exact Hb]. apply Z.log2_lt_pow2; lia.
  Qed.

  Lemma lowest_lt i j : (i < length ints)%nat -> lowest_bit (val i) j -> j < m.
  Proof.
    intros Hi (Hj & T & _). destruct (Z.lt_ge_cases j m) as [H|H]; [exact H|].
    rewrite high_bits in T; [discriminate| |exact H]. pose proof (val_In i Hi) as H1. split; [apply Z.lt_le_incl, Hpos, H1|apply Hw, H1].
  Qed.

  (** Completions of a partial cover. *)
  Inductive completes : Z -> list nat -> Prop :=
  | comp_nil : completes all []
  | comp_cons c i I j : c <> all -> (i < length ints)%nat -> lowest_unset c j -> lowest_bit (val i) j ->
      Z.land c (val i) = 0 -> completes (Z.lor c (val i)) I -> completes c (i :: I).

  Definition bitset (c : Z) : Prop := 0 <= c < 2 ^ m.

  Lemma bitset_lor c i : bitset c -> (i < length ints)%nat -> bitset (Z.lor c (val i)).
  Proof.
    intros (A & B) Hi. pose proof (val_In i Hi) as H1. pose proof (Hpos _ H1) as P. pose proof (Hw _ H1) as W.
    split; [apply Z.lor_nonneg; lia|]. destruct (Z.eq_dec (Z.lor c (val i)) 0) as [->|H0]; [apply Z.pow_pos_nonneg; lia|].
    assert (0 <= Z.lor c (val i)) by (apply Z.lor_nonneg; lia).
    apply Z.log2_lt_cancel. rewrite Z.log2_lor by lia. rewrite Z.log2_pow2 by lia.
    apply Z.max_lub_lt.
    - destruct (Z.eq_dec c 0) as [->|]; [|apply Z.log2_lt_pow2; lia].
      cbn. apply Z.nle_gt. intros Hm0. assert (m = 0) by lia. subst m. cbn in W. lia.
    - apply Z.log2_lt_pow2; lia.
  Qed.

  Lemma unset_lt c j : bitset c -> c <> all -> lowest_unset c j -> j < m.
  Proof.
    intros (A & B) Hne (Hj & T & L). destruct (Z.lt_ge_cases j m) as [H|H]; [exact H|]. exfalso. apply Hne.
    rewrite all_ones. apply Z.bits_inj'. intros n Hn. destruct (Z.lt_ge_cases n m) as [H1|H1].
    - rewrite L by lia. rewrite Z.ones_spec_low by lia. reflexivity.
    - rewrite high_bits by (lia || (split; assumption)). rewrite Z.ones_spec_high by lia. reflexivity.
  Qed.

  Definition b2n (b : bool) : nat := if b then 1%nat else 0%nat.
  Definition cnt (b : Z) (I : list nat) : nat := length (filter (fun i => Z.testbit (val i) b) I).

  Lemma cnt_cons b i I : cnt b (i :: I) = (b2n (Z.testbit (val i) b) + cnt b I)%nat.
  Proof. unfold cnt. cbn [filter]. destruct (Z.testbit (val i) b); reflexivity. Qed.

  Definition ordered : list nat -> Prop :=
    StronglySorted (fun i j => exists a b, lowest_bit (val i) a /\ lowest_bit (val j) b /\ a < b).

  Lemma unset_mono c i j k : lowest_unset c j -> lowest_bit (val i) j -> lowest_unset (Z.lor c (val i)) k -> j < k.
  Proof.
    intros (Hj & T & L) (_ & T' & _) (Hk & Tk & Lk). destruct (Z.lt_trichotomy j k) as [H|[H|H]]; [exact H| |].
    - subst. rewrite Z.lor_spec, T', orb_true_r in Tk. discriminate.
    - rewrite Z.lor_spec, L in Tk by lia. discriminate.
  Qed.

  Lemma completes_sound c I : completes c I -> bitset c ->
    (forall i, In i I -> (i < length ints)%nat) /\ ordered I /\
    (forall b, 0 <= b < m -> (b2n (Z.testbit c b) + cnt b I)%nat = 1%nat) /\
    (forall j i, lowest_unset c j -> In i I -> exists a, lowest_bit (val i) a /\ j <= a).
  Proof.
    induction 1 as [|c i I j Hne Hi Hu Hl Hd HC IH]; intros B.
    - split; [intros i []|]. split; [constructor|]. split; [|intros j i _ []].
      intros b Hb. rewrite all_ones, Z.ones_spec_low by lia. reflexivity.
    - destruct (IH (bitset_lor c i B Hi)) as (A1 & A2 & A3 & A4).
      split; [intros k [<-|Hk]; auto|]. split; [|split].
      + constructor; [exact A2|]. rewrite Forall_forall. intros k Hk.
        pose proof (bitset_lor c i B Hi) as (B0 & _). destruct (lub_spec _ B0) as (j' & Hj' & _).
        destruct (A4 j' k Hj' Hk) as (a & Ha & Hja). exists j, a. split; [exact Hl|]. split; [exact Ha|].
        pose proof (unset_mono c i j j' Hu Hl Hj'). lia.
      + intros b Hb. rewrite cnt_cons. specialize (A3 b Hb). rewrite Z.lor_spec in A3.
        assert (D : Z.testbit c b && Z.testbit (val i) b = false).
        { rewrite <- Z.land_spec, Hd. apply Z.testbit_0_l. }
        destruct (Z.testbit c b), (Z.testbit (val i) b); cbn [b2n orb andb] in *; try discriminate; lia.
      + intros k x Hk [<-|Hx].
        * exists j. split; [exact Hl|]. assert (k = j); [|lia]. destruct Hk as (K1 & K2 & K3), Hu as (U1 & U2 & U3).
          destruct (Z.lt_trichotomy k j) as [H|[H|H]]; [rewrite U3 in K2 by lia; discriminate|exact H|rewrite K3 in U2 by lia; discriminate].
        * pose proof (bitset_lor c i B Hi) as (B0 & _). destruct (lub_spec _ B0) as (j' & Hj' & _).
          destruct (A4 j' x Hj' Hx) as (a & Ha & Hja). exists a. split; [exact Ha|].
          assert (k = j). { destruct Hk as (K1 & K2 & K3), Hu as (U1 & U2 & U3).
          destruct (Z.lt_trichotomy k j) as [H|[H|H]]; [rewrite U3 in K2 by lia; discriminate|exact H|rewrite K3 in U2 by lia; discriminate]. }
          pose proof (unset_mono c i j j' Hu Hl Hj'). lia.
  Qed.

  Lemma cnt_In b I : (0 < cnt b I)%nat -> exists i, In i I /\ Z.testbit (val i) b = true.
  Proof.
    unfold cnt. destruct (filter _ I) as [|i l] eqn:E; [cbn; lia|]. intros _. exists i. apply (proj1 (filter_In (fun i => Z.testbit (val i) b) i I)). rewrite E. left. reflexivity.
  Qed.
  Lemma In_cnt b I i : In i I -> Z.testbit (val i) b = true -> (0 < cnt b I)%nat.
  Proof.
    intros H T. unfold cnt. assert (H' : In i (filter (fun i => Z.testbit (val i) b) I)) by (apply filter_In; auto).
    destruct (filter _ I); [destruct H'|cbn; lia].
  Qed.

  Lemma completes_complete : forall I c, bitset c ->
    (forall i, In i I -> (i < length ints)%nat) -> ordered I ->
    (forall b, 0 <= b < m -> (b2n (Z.testbit c b) + cnt b I)%nat = 1%nat) -> completes c I.
  Proof.
    induction I as [|i I IH]; intros c B Hi O C.
    - replace c with all; [constructor|]. rewrite all_ones. symmetry. apply Z.bits_inj'. intros n Hn.
      destruct (Z.lt_ge_cases n m) as [H1|H1].
      + rewrite Z.ones_spec_low by lia. specialize (C n ltac:(lia)). destruct (Z.testbit c n); [reflexivity|discriminate C].
      + rewrite high_bits by (assumption || lia). rewrite Z.ones_spec_high by lia. reflexivity.
    - assert (Hi0 : (i < length ints)%nat) by (apply Hi; left; reflexivity).
      destruct (land_neg_lowest (val i) (Hpos _ (val_In i Hi0))) as (a & Ha & _).
      pose proof (lowest_lt i a Hi0 Ha) as Ham. assert (Ha' := Ha). destruct Ha' as (Ha0 & Hat & _).
      assert (Hca : Z.testbit c a = false).
      { specialize (C a ltac:(lia)). rewrite cnt_cons, Hat in C. destruct (Z.testbit c a); [cbn in C; lia|reflexivity]. }
      assert (Hne : c <> all). { intros ->. rewrite all_ones, Z.ones_spec_low in Hca by lia. discriminate. }
      assert (B0 := B). destruct B0 as (B0 & _). destruct (lub_spec c B0) as (j & Hj & _).
      pose proof (unset_lt c j B Hne Hj) as Hjm. assert (Hj' := Hj). destruct Hj' as (Hj0 & Hjf & Hjl).
      assert (Hja : j <= a). { destruct (Z.lt_ge_cases a j); [rewrite Hjl in Hca by lia; discriminate|lia]. }
      assert (Haj : a <= j).
      { pose proof (C j ltac:(lia)) as Cj. rewrite Hjf in Cj. cbn [b2n Nat.add] in Cj.
        destruct (cnt_In j (i :: I)) as (k & Hk & Hkt); [lia|].
        assert (Hkl : (k < length ints)%nat) by (apply Hi, Hk).
        destruct (land_neg_lowest (val k) (Hpos _ (val_In k Hkl))) as (a' & Ha' & _).
        assert (Hak : a' <= j). { destruct Ha' as (H1 & H2 & H3). destruct (Z.lt_ge_cases j a'); [rewrite H3 in Hkt by lia; discriminate|lia]. }
        destruct Hk as [<-|Hk]; [rewrite (lowest_bit_unique _ _ _ Ha Ha'); exact Hak|].
        inversion_clear O as [|? ? O1 O2]. rewrite Forall_forall in O2. destruct (O2 k Hk) as (x & y & Hx & Hy & Hxy).
        rewrite (lowest_bit_unique _ _ _ Ha Hx). pose proof (lowest_bit_unique _ _ _ Ha' Hy). lia. }
      assert (a = j) by lia. subst a.
      assert (Hdis : Z.land c (val i) = 0).
      { apply Z.bits_inj'. intros n Hn. rewrite Z.land_spec, Z.testbit_0_l. destruct (Z.lt_ge_cases n m) as [H1|H1].
        - specialize (C n ltac:(lia)). rewrite cnt_cons in C. destruct (Z.testbit c n), (Z.testbit (val i) n); cbn in *; try reflexivity; lia.
        - rewrite high_bits by (assumption || lia). reflexivity. }
      apply comp_cons with j; try assumption. apply IH.
      + apply bitset_lor; assumption.
      + intros k Hk. apply Hi. right. exact Hk.
      + inversion O; assumption.
      + intros b Hb. specialize (C b Hb). rewrite cnt_cons in C. rewrite Z.lor_spec.
        destruct (Z.testbit c b), (Z.testbit (val i) b); cbn in *; lia.
  Qed.

  Lemma completes_exact I : completes 0 I <-> exact_cover ints m I.
  Proof.
    assert (B : bitset 0) by (split; [lia|apply Z.pow_pos_nonneg; lia]). split.
    - intros H. destruct (completes_sound 0 I H B) as (A1 & A2 & A3 & _). split; [exact A1|]. split; [exact A2|].
      intros b Hb. specialize (A3 b Hb). rewrite Z.testbit_0_l in A3. exact A3.
    - intros (A1 & A2 & A3). apply completes_complete; [exact B|exact A1|exact A2|].
      intros b Hb. rewrite Z.testbit_0_l. apply A3, Hb.
  Qed.

  (** ** The search, in terms of positions *)
  Definition lubv (c : Z) : Z := Z.land (Z.lnot c) (c + 1).
  Definition cands (c : Z) : list nat :=
    filter (fun i => (Z.land (val i) (- val i) =? lubv c) && (Z.land c (val i) =? 0)) (seq 0 (length ints)).

  Lemma cands_In c i : bitset c -> In i (cands c) <->
    (i < length ints)%nat /\ (exists j, lowest_unset c j /\ lowest_bit (val i) j) /\ Z.land c (val i) = 0.
  Proof.
    intros (B & _). unfold cands. rewrite filter_In, in_seq, andb_true_iff, !Z.eqb_eq.
    destruct (lub_spec c B) as (j & Hj & E). unfold lubv. rewrite E. split.
    - intros (H1 & H2 & H3). split; [lia|]. split; [|exact H3]. exists j. split; [exact Hj|].
      apply land_neg_iff; [apply Hpos, val_In; lia|apply Hj|exact H2].
    - intros (H1 & (k & Hk & Hl) & H3). split; [lia|]. split; [|exact H3].
      apply land_neg_iff; [apply Hpos, val_In; lia|apply Hj|].
      replace j with k; [exact Hl|]. destruct Hk as (K1 & K2 & K3), Hj as (U1 & U2 & U3).
      destruct (Z.lt_trichotomy k j) as [H|[H|H]]; [rewrite U3 in K2 by lia; discriminate|exact H|rewrite K3 in U2 by lia; discriminate].
  Qed.

  Lemma cands_vectors c : map (fun i => val i) (cands c) = filter (fun v => Z.land c v =? 0) (ec_vectors ints (lubv c)).
  Proof.
    unfold cands, ec_vectors.
    assert (G : forall l (f : Z -> bool), map (fun i => nth i l 0) (filter (fun i => f (nth i l 0)) (seq 0 (length l))) = filter f l).
    { clear. induction l as [|x l IH]; intros f; [reflexivity|]. cbn [length seq filter]. change (nth 0 (x :: l) 0) with x.
      rewrite <- seq_shift. assert (E : forall L, map (fun i => nth i (x :: l) 0) (filter (fun i => f (nth i (x :: l) 0)) (map S L))
        = map (fun i => nth i l 0) (filter (fun i => f (nth i l 0)) L)).
      { induction L as [|k L IHL]; [reflexivity|]. cbn [map filter]. change (nth (S k) (x :: l) 0) with (nth k l 0). destruct (f (nth k l 0)); cbn [map]; rewrite IHL; reflexivity. }
      destruct (f x); cbn [map]; rewrite E, IH; reflexivity. }
    rewrite (G ints (fun v => (Z.land v (- v) =? lubv c) && (Z.land c v =? 0))).
    clear. induction ints as [|x l IH]; [reflexivity|]. cbn [filter]. rewrite IH.
    destruct (Z.land x (- x) =? lubv c); cbn [andb filter]; [destruct (Z.land c x =? 0); reflexivity|reflexivity].
  Qed.

  (** Number of unset bits below m. *)
  Definition holes (c : Z) : nat := length (filter (fun b => negb (Z.testbit c b)) (zrange 0 m)).

  Lemma holes_lt c i : bitset c -> c <> all -> In i (cands c) -> (holes (Z.lor c (val i)) < holes c)%nat.
  Proof.
    intros B Hne Hi. apply cands_In in Hi as (Hi & (j & Hu & Hl) & _); [|exact B].
    pose proof (unset_lt c j B Hne Hu) as Hjm. destruct Hu as (Hj & Hf & _). destruct Hl as (_ & Ht & _).
    unfold holes. change (length (j :: filter (fun b => negb (Z.testbit (Z.lor c (val i)) b)) (zrange 0 m)) <=
      length (filter (fun b => negb (Z.testbit c b)) (zrange 0 m)))%nat.
    apply NoDup_incl_length.
    - constructor; [|apply NoDup_filter, zrange_NoDup]. rewrite filter_In, Z.lor_spec, Ht, orb_true_r. intros (_ & H). discriminate H.
    - intros b [<-|Hb]; apply filter_In.
      + split; [apply zrange_In; lia|]. rewrite Hf. reflexivity.
      + apply filter_In in Hb as (H1 & H2). split; [exact H1|]. rewrite Z.lor_spec in H2.
        destruct (Z.testbit c b); [discriminate H2|reflexivity].
  Qed.

  Fixpoint expand (k : nat) (c : Z) : list (list nat) :=
    if c =? all then [[]] else
    match k with
    | O => []
    | S k' => flat_map (fun i => map (cons i) (expand k' (Z.lor c (val i)))) (rev (cands c))
    end.

  Lemma expand_In k : forall c, bitset c -> (holes c <= k)%nat -> forall I, In I (expand k c) <-> completes c I.
  Proof.
    induction k as [|k IH]; intros c B Hk I; cbn [expand]; destruct (Z.eqb_spec c all) as [E|E].
    1,3: cbn [In]; split; [intros [<-|[]]; rewrite E; constructor|]; intros H; inversion H; subst; [left; reflexivity|congruence].
    - split; [intros []|]. intros H. inversion H; subst; [congruence|].
      pose proof (holes_lt c i B E). assert (In i (cands c)) by (apply cands_In; [exact B|]; split; [assumption|]; split; [exists j; auto|assumption]).
      specialize (H6 H7). lia.
    - rewrite in_flat_map. split.
      + intros (i & Hi & H). apply in_rev in Hi. apply in_map_iff in H as (I' & <- & H).
        pose proof (holes_lt c i B E Hi) as Hh. assert (Hi' := Hi). apply cands_In in Hi' as (Hi1 & (j & Hu & Hl) & Hd); [|exact B].
        apply comp_cons with j; try assumption. apply IH in H; [exact H|apply bitset_lor; assumption|lia].
      + intros H. inversion H; subst; [congruence|].
        assert (Hi : In i (cands c)) by (apply cands_In; [exact B|]; split; [assumption|]; split; [exists j; auto|assumption]).
        exists i. split; [apply in_rev in Hi; exact Hi|]. apply in_map. apply IH; [apply bitset_lor; assumption| |assumption].
        pose proof (holes_lt c i B E Hi). lia.
  Qed.

  Lemma cands_NoDup c : NoDup (cands c).
  Proof. apply NoDup_filter, seq_NoDup. Qed.

  Lemma expand_NoDup k : forall c, NoDup (expand k c).
  Proof.
    induction k as [|k IH]; intros c; cbn [expand]; destruct (c =? all); try (repeat constructor; intros []; fail).
    assert (N : NoDup (rev (cands c))) by (apply NoDup_rev, cands_NoDup).
    induction N as [|i l Hi N IHl]; [constructor|]. cbn [flat_map]. apply NoDup_app_intro; [|exact IHl|].
    - apply NoDup_map_inj; [apply IH|]. intros x y _ _ [= ->]. reflexivity.
    - intros x Hx Hy. apply in_map_iff in Hx as (x' & <- & _). apply in_flat_map in Hy as (i' & Hi' & Hy).
      apply in_map_iff in Hy as (y' & [= -> _] & _). contradiction.
  Qed.

  (** ** solutions *)
  Notation vals I := (map (fun i => nth i ints 0) I).

  Lemma ec_push_eq c used st : ec_push ints c used st =
    map (fun i => (Z.lor c (val i), used ++ [val i])) (rev (cands c)) ++ st.
  Proof.
    unfold ec_push. fold (lubv c). rewrite map_rev.
    assert (G : forall vs st, fold_left (fun st v => if Z.land c v =? 0 then (Z.lor c v, used ++ [v]) :: st else st) vs st
      = rev (map (fun v => (Z.lor c v, used ++ [v])) (filter (fun v => Z.land c v =? 0) vs)) ++ st).
    { induction vs as [|v vs IH]; intros s; [reflexivity|]. cbn [fold_left filter]. rewrite IH.
      destruct (Z.land c v =? 0); [|reflexivity]. cbn [map rev]. rewrite <- app_assoc. reflexivity. }
    rewrite G, <- cands_vectors, map_map. reflexivity.
  Qed.

  Lemma ec_loop_expand k : forall c used st L, bitset c -> (holes c <= k)%nat ->
    yields (fun f => ec_loop ints all f st) L ->
    yields (fun f => ec_loop ints all f ((c, used) :: st)) (map (fun I => used ++ vals I) (expand k c) ++ L).
  Proof.
    induction k as [|k IH]; intros c used st L B Hk (N & HN).
    - exists (S N). intros [|f] Hf; [lia|]. cbn [ec_loop expand]. destruct (Z.eqb_spec c all) as [E|E].
      + rewrite HN by lia. cbn [map app]. rewrite app_nil_r. reflexivity.
      + cbn [map app]. rewrite ec_push_eq. destruct (cands c) as [|i l] eqn:Ec; [apply HN; lia|].
        pose proof (holes_lt c i B E) as H. rewrite Ec in H. specialize (H (or_introl eq_refl)). lia.
    - cbn [expand]. destruct (Z.eqb_spec c all) as [E|E].
      + exists (S N). intros [|f] Hf; [lia|]. cbn [ec_loop]. rewrite (proj2 (Z.eqb_eq _ _) E), HN by lia. cbn [map app]. rewrite app_nil_r. reflexivity.
      + assert (G : forall l, (forall i, In i l -> In i (cands c)) ->
          yields (fun f => ec_loop ints all f (map (fun i => (Z.lor c (val i), used ++ [val i])) l ++ st))
            (map (fun I => used ++ vals I) (flat_map (fun i => map (cons i) (expand k (Z.lor c (val i)))) l) ++ L)).
        { induction l as [|i l IHl]; intros Hl; [exists N; exact HN|]. cbn [map flat_map app].
          rewrite map_app, <- app_assoc.
          pose proof (holes_lt c i B E (Hl i (or_introl eq_refl))) as Hh.
          assert (Hi : (i < length ints)%nat) by (specialize (Hl i (or_introl eq_refl)); apply cands_In in Hl; [apply Hl|exact B]).
          assert (Em : map (fun I => used ++ vals I) (map (cons i) (expand k (Z.lor c (val i)))) =
            map (fun I => (used ++ [val i]) ++ vals I) (expand k (Z.lor c (val i)))).
          { rewrite map_map. apply map_ext. intros I. cbn [map]. rewrite <- app_assoc. reflexivity. }
          rewrite Em. apply IH; [apply bitset_lor; assumption|lia|]. apply IHl. intros x Hx. apply Hl. right. exact Hx. }
        destruct (G (rev (cands c))) as (N' & HN'); [intros i Hi; apply in_rev; exact Hi|].
        exists (S N'). intros [|f] Hf; [lia|]. cbn [ec_loop]. rewrite (proj2 (Z.eqb_neq _ _) E), ec_push_eq. apply HN'. lia.
  Qed.

  Lemma ec_loop_solutions : exists L, NoDup L /\ (forall I, In I L <-> exact_cover ints m I) /\
    yields (fun f => ec_loop ints all f [(0, [])]) (map (fun I => vals I) L).
  Proof.
    assert (B : bitset 0) by (split; [lia|apply Z.pow_pos_nonneg; lia]).
    exists (expand (holes 0) 0). split; [apply expand_NoDup|]. split.
    - intros I. rewrite expand_In by (exact B || lia). apply completes_exact.
    - assert (Y : yields (fun f => ec_loop ints all f []) []) by (exists 1%nat; intros [|f] Hf; [lia|reflexivity]).
      pose proof (ec_loop_expand (holes 0) 0 [] [] [] B (le_n _) Y) as H. rewrite app_nil_r in H. exact H.
  Qed.

  (** ** number_of_solutions *)
  Definition cacheOK (cache : list (Z * Z)) : Prop :=
    forall c t, In (c, t) cache -> number_of (completes c) t.

  Lemma ec_lookup_In cache k t : ec_lookup cache k = Some t -> In (k, t) cache.
  Proof.
    induction cache as [|[k' v] cache IH]; cbn [ec_lookup]; [discriminate|].
    destruct (Z.eqb_spec k k') as [->|]; [intros [= ->]; left; reflexivity|intros H; right; auto].
  Qed.
  Lemma ec_lookup_Some cache k t : In (k, t) cache -> exists t', ec_lookup cache k = Some t'.
  Proof.
    induction cache as [|[k' v] cache IH]; cbn [ec_lookup In]; [intros []|].
    intros [H|H]; [injection H as -> ->; rewrite Z.eqb_refl; eauto|]. destruct (k =? k'); eauto.
  Qed.

  Lemma number_completes_all : number_of (completes all) 1.
  Proof.
    apply (number_of_one _ []). intros I. split; [|intros ->; constructor]. intros H. inversion H; subst; [reflexivity|congruence].
  Qed.

  Lemma ec_backtrack_ok : forall fuel cache c, bitset c -> (holes c < fuel)%nat -> cacheOK cache -> (exists t, In (all, t) cache) ->
    exists t cache', ec_backtrack ints fuel cache c = Ret (t, cache') /\ cacheOK cache' /\ (exists t, In (all, t) cache') /\ number_of (completes c) t.
  Proof.
    induction fuel as [|fuel IH]; intros cache c B Hf K Ka; [lia|]. cbn [ec_backtrack].
    destruct (ec_lookup cache c) as [t|] eqn:El.
    { exists t, cache. split; [reflexivity|]. split; [exact K|]. split; [exact Ka|]. apply K, ec_lookup_In, El. }
    assert (E : c <> all). { intros ->. destruct Ka as (t & Ht). apply ec_lookup_Some in Ht as (t' & Ht). congruence. }
    fold (lubv c).
    assert (G : forall is_ cache total, (forall i, In i is_ -> In i (cands c)) -> NoDup is_ -> cacheOK cache -> (exists t, In (all, t) cache) ->
      forall vs, map (fun i => val i) is_ = filter (fun v => Z.land c v =? 0) vs ->
      exists s cache', ec_sum (ec_backtrack ints fuel) vs c cache total = Ret (total + s, cache') /\ cacheOK cache' /\ (exists t, In (all, t) cache') /\
        number_of (fun I => exists i I', In i is_ /\ I = i :: I' /\ completes (Z.lor c (val i)) I') s).
    { intros is_ cache0 total Hs Nd K0 Ka0 vs Ev. revert is_ cache0 total Hs Nd K0 Ka0 Ev.
      induction vs as [|v vs IHv]; intros is_ cache0 total Hs Nd K0 Ka0 Ev; cbn [filter] in Ev.
      - destruct is_; [|discriminate Ev]. exists 0, cache0. cbn [ec_sum]. rewrite Z.add_0_r. split; [reflexivity|]. split; [exact K0|]. split; [exact Ka0|].
        apply number_of_none. intros I (i & I' & [] & _).
      - cbn [ec_sum]. destruct (Z.land c v =? 0) eqn:Ed; [|apply IHv; assumption].
        destruct is_ as [|i is_]; [discriminate Ev|]. cbn [map] in Ev. injection Ev as Ei Ev. subst v.
        assert (Hi : In i (cands c)) by (apply Hs; left; reflexivity).
        pose proof (holes_lt c i B E Hi) as Hh. assert (Hi' := Hi). apply cands_In in Hi' as (Hi1 & _); [|exact B].
        destruct (IH cache0 (Z.lor c (val i))) as (t & cache1 & E1 & K1 & Ka1 & V1); [apply bitset_lor; assumption|lia|exact K0|exact Ka0|].
        rewrite E1. cbn [bind]. inversion_clear Nd as [|? ? Nd1 Nd2].
        destruct (IHv is_ cache1 (total + t)) as (s & cache2 & E2 & K2 & Ka2 & V2); [intros x Hx; apply Hs; right; exact Hx|exact Nd2|exact K1|exact Ka1|exact Ev|].
        exists (t + s), cache2. rewrite E2. split; [f_equal; f_equal; lia|]. split; [exact K2|]. split; [exact Ka2|].
        apply (number_of_ext (fun I => (exists I', I = i :: I' /\ completes (Z.lor c (val i)) I') \/
          (exists i0 I', In i0 is_ /\ I = i0 :: I' /\ completes (Z.lor c (val i0)) I'))).
        + intros I. split.
          * intros [(I' & H1 & H2)|(i0 & I' & H0 & H1)]; [exists i, I'|exists i0, I']; cbn [In]; auto.
          * intros (i0 & I' & [<-|H0] & H1); [left; exists I'; exact H1|right; exists i0, I'; auto].
        + apply number_of_or; [| |exact V2].
          * intros I (I' & -> & _) (i0 & I'' & H0 & [= -> _] & _). contradiction.
          * revert V1. apply (number_of_bij _ _ (cons i) (@tl nat)).
            -- intros I H. split; [exists I; auto|reflexivity].
            -- intros I (I' & -> & H). auto. }
    destruct (G (cands c) cache 0 (fun i H => H) (cands_NoDup c) K Ka (ec_vectors ints (lubv c)) (cands_vectors c)) as (s & cache' & E' & K' & (t & Ht) & V).
    assert (V' : number_of (completes c) s).
    { revert V. apply number_of_ext. intros I. split.
      - intros (i & I' & Hi & -> & H). apply cands_In in Hi as (Hi1 & (j & Hu & Hl) & Hd); [|exact B]. apply comp_cons with j; assumption.
      - intros H. inversion H; subst; [congruence|]. exists i, I0. split; [|auto]. apply cands_In; [exact B|]. split; [assumption|]. split; [exists j; auto|assumption]. }
    rewrite E'. cbn [bind]. rewrite Z.add_0_l. exists s. eexists. split; [reflexivity|]. split; [|split; [exists t; right; exact Ht|exact V']].
    intros c0 t0 [[= <- <-]|H]; [exact V'|]. apply K', H.
  Qed.

  Lemma ec_count : exists t cache, ec_backtrack ints (S (Z.to_nat m)) [(all, 1)] 0 = Ret (t, cache) /\ number_of (exact_cover ints m) t.
  Proof.
    assert (B : bitset 0) by (split; [lia|apply Z.pow_pos_nonneg; lia]).
    destruct (ec_backtrack_ok (S (Z.to_nat m)) [(all, 1)] 0 B) as (t & cache & E & _ & _ & V).
    - unfold holes. pose proof (NoDup_incl_length (NoDup_filter (fun b => negb (Z.testbit 0 b)) (zrange_NoDup 0 m)) (incl_filter _ (zrange 0 m))) as H.
      rewrite zrange_length in H. lia.
    - intros c t [[= <- <-]|[]]. apply number_completes_all.
    - exists 1. left. reflexivity.
    - exists t, cache. split; [exact E|]. revert V. apply number_of_ext. apply completes_exact.
  Qed.
End Cover.

Lemma fold_max_spec (l : list Z) a : fold_left (fun nb n => Z.max nb (bit_length n)) l a = fold_right Z.max a (map bit_length l).
Proof.
  revert a. induction l as [|x l IH]; intros a; [reflexivity|]. cbn [fold_left map fold_right]. rewrite IH. clear IH.
  induction (map bit_length l) as [|y r IH]; cbn [fold_right]; lia.
Qed.

Lemma bit_length_pos v : 0 < v -> bit_length v = Z.log2 v + 1.
Proof. intros H. unfold bit_length. destruct (Z.eqb_spec v 0); [lia|]. rewrite Z.abs_eq by lia. reflexivity. Qed.

Lemma width_unique ints a b : (forall v, In v ints -> 0 < v) -> is_width ints a -> is_width ints b -> a = b.
Proof.
  intros P (A1 & A2 & A3) (B1 & B2 & B3).
  destruct (Z.lt_trichotomy a b) as [H|[H|H]]; [|exact H|].
  - destruct (B3 ltac:(lia)) as (v & Hv & L). specialize (A2 v Hv). assert (2 ^ a <= 2 ^ (b - 1)) by (apply Z.pow_le_mono_r; lia). lia.
  - destruct (A3 ltac:(lia)) as (v & Hv & L). specialize (B2 v Hv). assert (2 ^ b <= 2 ^ (a - 1)) by (apply Z.pow_le_mono_r; lia). lia.
Qed.

Lemma num_bits_width ints : (forall v, In v ints -> 0 < v) -> is_width ints (ec_num_bits ints).
Proof.
  intros P. unfold ec_num_bits. rewrite fold_max_spec. induction ints as [|x l IH].
  - cbn. split; [lia|]. split; [intros v []|lia].
  - cbn [map fold_right]. destruct IH as (A & B & C); [intros v Hv; apply P; right; exact Hv|].
    assert (Hx : 0 < x) by (apply P; left; reflexivity). rewrite bit_length_pos by exact Hx.
    pose proof (Z.log2_spec x Hx) as (L1 & L2). pose proof (Z.log2_nonneg x) as L0. unfold Z.succ in L2.
    set (r := fold_right Z.max 0 (map bit_length l)) in *. split; [lia|]. split.
    + intros v [<-|Hv].
      * apply Z.lt_le_trans with (2 ^ (Z.log2 x + 1)); [exact L2|]. apply Z.pow_le_mono_r; lia.
      * apply Z.lt_le_trans with (2 ^ r); [apply B, Hv|]. apply Z.pow_le_mono_r; lia.
    + intros _. destruct (Z.le_gt_cases r (Z.log2 x + 1)) as [H|H].
      * exists x. split; [left; reflexivity|]. replace (Z.max (Z.log2 x + 1) r - 1) with (Z.log2 x) by lia. exact L1.
      * destruct (C ltac:(lia)) as (v & Hv & L). exists v. split; [right; exact Hv|].
        replace (Z.max (Z.log2 x + 1) r) with r by lia. exact L.
Qed.
