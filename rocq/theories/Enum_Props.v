(** * C38, C39, C40: binomial, multinomial, Bell, Stirling and bipartition numbers *)
From Coq Require Import ZArith List Lia Bool Sorting.Sorted Sorting.Permutation.
From Verif Require Import Base Lists Lists2 Count Perm_Proofs Tuples_Proofs Enum_Model Enum_Proofs Enum_Proofs2 Enum_Proofs3.
Import ListNotations.
Open Scope Z_scope.

(** binomial(n, k) is the number of k-subsets of {0, ..., n - 1} (written as
    decreasing lists of length k). *)
Theorem C38_binomial (n k : Z) : 0 <= k <= n -> exists v, binomial n k = Ret v /\
  number_of (fun d => Z.of_nat (length d) = k /\ StronglySorted (fun x y => y < x) d /\ Forall (fun x => 0 <= x < n) d) v.
Proof.
  intros H. exists (choose (Z.to_nat n) (Z.to_nat k)). split.
  - rewrite <- (binomial_choose (Z.to_nat n) (Z.to_nat k)) by lia. rewrite !Z2Nat.id by lia. reflexivity.
  - pose proof (number_of_combinations (Z.to_nat n) (Z.to_nat k)) as Q. rewrite !Z2Nat.id in Q by lia. exact Q.
Qed.

(** Outside that range the answer should be 0, but it is 1. *)
Theorem C38_binomial_out_of_range_refuted (n k : Z) : 0 <= n -> k < 0 \/ n < k -> binomial n k = Ret 1.
Proof.
  intros Hn H. unfold binomial. cbv zeta. rewrite (zrange_nil (n - Z.min k (n - k) + 1)) by lia. rewrite (zrange_nil 2) by lia. reflexivity.
Qed.

(** multinomial(n, [k_1, ..., k_r]) with k_1 + ... + k_r <= n is n!/(k_1! ... k_r!), exactly. *)
Theorem C38_multinomial (n : Z) (k : list Z) : k <> [] -> Forall (fun e => 0 <= e) k -> zsum k <= n ->
  exists v, multinomial n k = Ret v /\
    v * zprod (map (fun e => zprod (zrange 1 (e + 1))) k) = zprod (zrange 1 (n + 1)).
Proof.
  intros Hne Hk Hs. set (k' := map Z.to_nat k).
  assert (Ek : k = map Z.of_nat k').
  { unfold k'. rewrite map_map. rewrite <- (map_id k) at 1. apply map_ext_in. intros e He. rewrite Forall_forall in Hk. specialize (Hk e He). lia. }
  assert (0 <= zsum k) by (rewrite Ek, zsum_of_nat; lia).
  destruct (multinomial_ok (Z.to_nat n) k') as (v & E & Hv).
  - intros E. rewrite E in Ek. exact (Hne Ek).
  - rewrite Ek, zsum_of_nat in Hs. lia.
  - exists v. rewrite <- Ek, Z2Nat.id in E by lia. split; [exact E|]. rewrite zf_prod, Z2Nat.id in Hv by lia. rewrite <- Hv. f_equal.
    rewrite Ek. clear. induction k' as [|e k' IH]; [reflexivity|]. cbn [map zfs]. rewrite <- IH, zf_prod. reflexivity.
Qed.

(** ... which, when the k_i sum to n, is the number of words containing k_1 ones, k_2 twos, ... *)
Theorem C38_multinomial_counts (k : list Z) : k <> [] -> Forall (fun e => 0 <= e) k ->
  exists v, multinomial (zsum k) k = Ret v /\
    number_of (fun w => Permutation w (multiset_of 1 (map Z.to_nat k))) v.
Proof.
  intros Hne Hk. destruct (C38_multinomial (zsum k) k Hne Hk ltac:(lia)) as (v & E & Hv). exists v. split; [exact E|].
  set (k' := map Z.to_nat k).
  assert (Ek : k = map Z.of_nat k').
  { unfold k'. rewrite map_map. rewrite <- (map_id k) at 1. apply map_ext_in. intros e He. rewrite Forall_forall in Hk. specialize (Hk e He). lia. }
  destruct (number_of_arrangements _ k' 1 eq_refl) as (w & Nw & Hw).
  replace v with w; [exact Nw|]. rewrite zf_prod, <- zsum_of_nat, <- Ek, <- Hv in Hw.
  replace (zprod (map (fun e => zprod (zrange 1 (e + 1))) k)) with (zfs k') in Hw.
  - pose proof (zfs_pos k'). apply Z.mul_reg_r in Hw; [exact Hw|lia].
  - rewrite Ek. clear. induction k' as [|e k' IH]; [reflexivity|]. cbn [map zfs]. rewrite IH, zf_prod. reflexivity.
Qed.

Theorem C38_multinomial_errors (n : Z) (k : list Z) : n < zsum k \/ k = [] -> multinomial n k = Raise ValueError.
Proof.
  intros H. unfold multinomial. destruct (Z.gtb_spec (zsum k) n); [reflexivity|]. destruct H as [H | ->]; [lia|reflexivity].
Qed.

(** bell_number(n) is the number of partitions of the set {1, ..., n}. *)
Theorem C39_bell (n : Z) : 0 <= n -> exists v, bell_number n = Ret v /\
  number_of (fun P : list (list Z) =>
    (* the blocks are nonempty sets, listed by their least elements, ... *)
    Forall (fun b => b <> [] /\ StronglySorted Z.lt b) P /\ StronglySorted (fun b c => hd 0 b < hd 0 c) P /\
    (* ... containing each of 1..n once *)
    Permutation (concat P) (zrange 1 (n + 1))) v.
Proof.
  intros H. exists (bell (Z.to_nat n)). split.
  - rewrite <- bell_number_ok, Z2Nat.id by lia. reflexivity.
  - apply number_of_set_partitions; [rewrite zrange_length; lia|apply zrange_sorted].
Qed.

Theorem C39_bell_negative (n : Z) : n < 0 -> bell_number n = Raise ValueError.
Proof. intros H. unfold bell_number. destruct (Z.ltb_spec n 0); [reflexivity|lia]. Qed.

(** stirling_number2(m, n) should be the number of partitions of {1, ..., m} into n blocks.  For n = 2 and every m >= 2 there are
    2^(m-1) - 1 of them and the code answers 2^(m-2) - 1 ... *)
Theorem C39_stirling_refuted (m : Z) : 2 <= m -> stirling_number2 m 2 = Ret (2 ^ (m - 2) - 1) /\ 2 ^ (m - 2) - 1 < 2 ^ (m - 1) - 1 /\
  number_of (fun P : list (list Z) =>
    Forall (fun b => b <> [] /\ StronglySorted Z.lt b) P /\ StronglySorted (fun b c => hd 0 b < hd 0 c) P /\
    Permutation (concat P) (zrange 1 (m + 1)) /\ length P = 2%nat) (2 ^ (m - 1) - 1).
Proof.
  intros Hm. split; [apply stirling_two, Hm|]. split; [apply Z.sub_lt_mono_r, Z.pow_lt_mono_r; lia|].
  pose proof (two_blocks 1 (zrange 2 (m + 1))) as H. rewrite <- (zrange_cons 1) in H by lia. specialize (H (zrange_sorted _ _)). rewrite zrange_length in H.
  replace (Z.of_nat (Z.to_nat (m + 1 - 2))) with (m - 1) in H by lia. revert H. apply number_of_ext. intros P. unfold set_partition. tauto.
Qed.

(** ... and for m, n >= 3 it raises KeyError. *)
Theorem C39_stirling_raises_refuted (m n : Z) : 3 <= m -> 3 <= n -> stirling_number2 m n = Raise KeyError.
Proof. apply stirling_raises. Qed.

(** The remaining cases: more blocks than elements, at most two elements; a negative argument. *)
Theorem C39_stirling_few (m n : Z) : 0 <= m <= 2 -> m < n -> stirling_number2 m n = if n =? m + 1 then Ret 0 else Raise KeyError.
Proof. intros Hm Hn. destruct (Z.eq_dec n 1) as [->|]; [replace m with 0 by lia; reflexivity|]. apply stirling_few; lia. Qed.
Theorem C39_stirling_negative (m n : Z) : m < 0 \/ n < 0 -> stirling_number2 m n = Raise KeyError.
Proof. apply stirling_negative. Qed.

(** For n = 0 and n = 1 the values are right: no partition into 0 blocks unless the
    set is empty, and one into one block. *)
Theorem C39_stirling_small (m : Z) :
  (0 <= m -> stirling_number2 m 0 = Ret (if m =? 0 then 1 else 0)) /\
  (1 <= m -> stirling_number2 m 1 = Ret 1).
Proof.
  assert (START : 0 <= m -> let S := fold_left (fun S i => pd_set S i (i + 1) 0) (zrange 0 (m + 1))
      (fold_left (fun S i => pd_set S i 0 0) (zrange 1 (m + 1)) (pd_set (fun _ _ => None) 0 0 1)) in
    (forall i, 0 <= i <= m -> S i 0 = Some (if i =? 0 then 1 else 0)) /\ S 0 1 = Some 0).
  { intros Hm.
    assert (A : forall k, 0 <= k <= m -> forall i, 0 <= i <= k ->
      fold_left (fun S i => pd_set S i 0 0) (zrange 1 (k + 1)) (pd_set (fun _ _ => None) 0 0 1) i 0 = Some (if i =? 0 then 1 else 0)).
    { intros k Hk0. destruct Hk0 as [Hk0 Hkm]. revert Hkm. pattern k. apply natlike_ind; [| |exact Hk0].
      - intros _ i Hi. replace i with 0 by lia. reflexivity.
      - intros x Hx IH Hkm i Hi. unfold Z.succ in *. rewrite zrange_snoc, fold_left_app by lia. cbn [fold_left]. unfold pd_set at 1.
        rewrite Z.eqb_refl, andb_true_r. destruct (Z.eqb_spec i (x + 1)) as [->|Hne]; [destruct (Z.eqb_spec (x + 1) 0); [lia|reflexivity]|].
        apply IH; lia. }
    assert (B : forall k S0, -1 <= k -> let S := fold_left (fun S i => pd_set S i (i + 1) 0) (zrange 0 (k + 1)) S0 in
      (forall i, S i 0 = S0 i 0) /\ (0 <= k -> S 0 1 = Some 0)).
    { intros k S0 Hk0. replace k with (k + 1 - 1) by lia. assert (Hk1 : 0 <= k + 1) by lia. clear Hk0.
      pattern (k + 1). apply natlike_ind; [| |exact Hk1].
      - split; [intros i; reflexivity|lia].
      - intros x Hx [IH1 IH2]. unfold Z.succ. replace (x + 1 - 1 + 1) with (x + 1) by lia. replace (x - 1 + 1) with x in * by lia.
        rewrite zrange_snoc, fold_left_app by lia. cbn [fold_left]. split.
        + intros i. unfold pd_set at 1. destruct (Z.eqb_spec 0 (x + 1)); [lia|]. rewrite andb_false_r. apply IH1.
        + intros _. unfold pd_set at 1. destruct (Z.eqb_spec 0 x) as [<-|Hx0]; [reflexivity|]. cbn [andb]. apply IH2. lia. }
    cbv zeta. destruct (B m (fold_left (fun S i => pd_set S i 0 0) (zrange 1 (m + 1)) (pd_set (fun _ _ => None) 0 0 1)) ltac:(lia)) as [B1 B2].
    split; [|apply B2; lia]. intros i Hi. rewrite B1. apply (A m); lia. }
  split; intros Hm; unfold stirling_number2; destruct (START ltac:(lia)) as [H1 H2];
    remember (fold_left (fun S i => pd_set S i (i + 1) 0) (zrange 0 (m + 1)) _) as S0 eqn:ES; clear ES START.
  - assert (L : forall is S, (forall i, In i is -> 1 <= i) ->
      foldM (fun S i => foldM (fun S j => do a <- pd_get S (i - 1) j; do b <- pd_get S (i - j) (j - 1); Ret (pd_set S i j (j * a + b)))
        (zrange 1 (Z.min i 0 + 1)) S) is S = Ret S).
    { induction is as [|i is IH]; intros S Hi; [reflexivity|]. cbn [foldM]. specialize (Hi i (or_introl eq_refl)) as Hi'.
      rewrite zrange_nil by lia. cbn [foldM bind]. apply IH. intros j Hj. apply Hi. right. exact Hj. }
    rewrite L by (intros i Hi; apply zrange_In in Hi; lia). cbn [bind]. unfold pd_get. rewrite H1 by lia. reflexivity.
  - assert (L : forall k, 0 <= k -> k <= m -> exists S,
      foldM (fun S i => foldM (fun S j => do a <- pd_get S (i - 1) j; do b <- pd_get S (i - j) (j - 1); Ret (pd_set S i j (j * a + b)))
        (zrange 1 (Z.min i 1 + 1)) S) (zrange 1 (k + 1)) S0 = Ret S /\
      (forall i, 0 <= i <= m -> S i 0 = Some (if i =? 0 then 1 else 0)) /\ S k 1 = Some (if k =? 0 then 0 else 1)).
    { intros k Hk. pattern k. apply natlike_ind; [| |exact Hk].
      - intros _. exists S0. split; [reflexivity|]. split; [exact H1|exact H2].
      - intros x Hx IH Hxm. unfold Z.succ in *. destruct IH as (S & E & I1 & I2); [lia|]. rewrite (zrange_snoc 1 (x + 1)), foldM_app by lia.
        rewrite E. cbn [bind foldM]. replace (Z.min (x + 1) 1 + 1) with 2 by lia. change (zrange 1 2) with [1]. cbn [foldM].
        replace (x + 1 - 1) with x by lia. unfold pd_get. rewrite I2. change (1 - 1) with 0. rewrite I1 by lia. cbn [bind].
        eexists. split; [reflexivity|]. split.
        + intros i Hi. unfold pd_set. destruct (Z.eqb_spec 0 1); [lia|]. rewrite andb_false_r. apply I1, Hi.
        + unfold pd_set. rewrite !Z.eqb_refl. cbn [andb]. destruct (Z.eqb_spec (x + 1) 0); [lia|]. destruct (Z.eqb_spec x 0); reflexivity. }
    destruct (L m ltac:(lia) ltac:(lia)) as (S & E & _ & I2). rewrite E. cbn [bind]. unfold pd_get. rewrite I2.
    destruct (Z.eqb_spec m 0); [lia|reflexivity].
Qed.

(** bipartitions(m, n) is the number of multisets of nonzero vectors of naturals with
    sum (m, n), each multiset being listed in decreasing lexicographic order. *)
Theorem C40_bipartitions (m n : Z) : 0 <= m -> 0 <= n -> exists v, bipartitions m n = Ret v /\
  number_of (fun l : list (Z * Z) =>
    Forall (fun a => 0 <= fst a /\ 0 <= snd a /\ a <> (0, 0)) l /\
    StronglySorted (fun a b => fst b < fst a \/ (fst b = fst a /\ snd b <= snd a)) l /\
    (zsum (map fst l), zsum (map snd l)) = (m, n)) v.
Proof. apply bipartitions_ok. Qed.

Example binomial_ex : binomial 10 4 = Ret 210. Proof. reflexivity. Qed.
Example multinomial_ex : multinomial 6 [2; 3; 1] = Ret 60. Proof. reflexivity. Qed.
Example bell_ex : bell_number 5 = Ret 52. Proof. reflexivity. Qed.
Example bipartitions_ex : bipartitions 2 2 = Ret 9. Proof. reflexivity. Qed.
Example multiset_ex : multiset_of 1 [2; 1]%nat = [1; 1; 2]. Proof. reflexivity. Qed.

Print Assumptions C38_binomial.
Print Assumptions C38_binomial_out_of_range_refuted.
Print Assumptions C38_multinomial.
Print Assumptions C38_multinomial_counts.
Print Assumptions C38_multinomial_errors.
Print Assumptions C39_bell.
Print Assumptions C39_bell_negative.
Print Assumptions C39_stirling_refuted.
Print Assumptions C39_stirling_raises_refuted.
Print Assumptions C39_stirling_few.
Print Assumptions C39_stirling_negative.
Print Assumptions C39_stirling_small.
Print Assumptions C40_bipartitions.
