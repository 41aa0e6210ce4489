(** * Proofs about binomial, multinomial, Bell and Stirling numbers *)
From Coq Require Import ZArith List Lia Bool Sorting.Sorted Sorting.Permutation.
From Verif Require Import Base Lists Lists2 Count Arith_Model Arith_Props Perm_Proofs Tuples_Proofs Enum_Model.
Import ListNotations.
Open Scope Z_scope.

(** ** Binomial coefficients *)
Fixpoint choose (n k : nat) : Z :=
  match k, n with
  | O, _ => 1
  | S _, O => 0
  | S k', S n' => choose n' k' + choose n' k
  end.

Fixpoint zf (n : nat) : Z := match n with O => 1 | S n' => Z.of_nat n * zf n' end.

Lemma zf_pos n : 1 <= zf n.
Proof. induction n as [|n IH]; cbn [zf]; nia. Qed.

Lemma zf_prod n : zf n = zprod (zrange 1 (Z.of_nat n + 1)).
Proof.
  induction n as [|n IH]; [reflexivity|]. replace (Z.of_nat (S n) + 1) with (Z.of_nat n + 1 + 1) by lia.
  rewrite zrange_snoc, zprod_app by lia. cbn [zf]. rewrite IH. unfold zprod at 3. cbn [fold_right]. rewrite Nat2Z.inj_succ. unfold Z.succ. ring.
Qed.

Lemma choose_out n : forall k, (n < k)%nat -> choose n k = 0.
Proof. induction n as [|n IH]; intros [|k] H; try lia; [reflexivity|]. cbn [choose]. rewrite !IH by lia. reflexivity. Qed.

Lemma choose_0 n : choose n 0 = 1.
Proof. destruct n; reflexivity. Qed.

Lemma choose_fact : forall n k, (k <= n)%nat -> choose n k * zf k * zf (n - k) = zf n.
Proof.
  induction n as [|n IH]; intros k H.
  - replace k with 0%nat by lia. reflexivity.
  - destruct k as [|k]; [cbn [choose Nat.sub]; change (zf 0) with 1; lia|]. cbn [choose Nat.sub].
    pose proof (IH k ltac:(lia)) as E1. destruct (Nat.eq_dec k n) as [->|Hk].
    + rewrite (choose_out n (S n)) by lia. rewrite Nat.sub_diag in *. change (zf 0) with 1 in *.
      change (zf (S n)) with (Z.of_nat (S n) * zf n). rewrite <- E1 at 2. ring.
    + pose proof (IH (S k) ltac:(lia)) as E2. replace (n - k)%nat with (S (n - S k))%nat in * by lia.
      change (zf (S n)) with (Z.of_nat (S n) * zf n).
      replace ((choose n k + choose n (S k)) * zf (S k) * zf (S (n - S k))) with
        (Z.of_nat (S k) * (choose n k * zf k * zf (S (n - S k))) + Z.of_nat (S (n - S k)) * (choose n (S k) * zf (S k) * zf (n - S k))).
      * rewrite E1, E2, <- Z.mul_add_distr_r. f_equal. lia.
      * cbn [zf]. ring.
Qed.

Lemma choose_sym n k : (k <= n)%nat -> choose n k = choose n (n - k).
Proof.
  intros H. pose proof (choose_fact n k H) as E1. pose proof (choose_fact n (n - k) ltac:(lia)) as E2.
  replace (n - (n - k))%nat with k in E2 by lia. pose proof (zf_pos k) as P1. pose proof (zf_pos (n - k)) as P2.
  apply (Z.mul_reg_r _ _ (zf k * zf (n - k))); [clear - P1 P2; nia|]. rewrite Z.mul_assoc, E1, <- E2. ring.
Qed.

Lemma fold_mul l : forall a, fold_left (fun pp e => pp * e) l a = a * zprod l.
Proof.
  induction l as [|x l IH]; intros a; cbn [fold_left]; [unfold zprod; cbn; lia|]. rewrite IH. unfold zprod. cbn [fold_right]. ring.
Qed.

Lemma foldM_pydiv l : Forall (fun e => 0 < e) l -> forall a, foldM pydiv l a = Ret (a / zprod l).
Proof.
  induction 1 as [|e l He Hl IH]; intros a; cbn [foldM].
  - unfold zprod. cbn. rewrite Z.div_1_r. reflexivity.
  - unfold pydiv at 1. destruct (Z.eqb_spec e 0); [lia|]. cbn [bind]. rewrite IH. f_equal.
    unfold zprod. cbn [fold_right]. apply Z.div_div; [lia|].
    clear - Hl. induction Hl as [|x l Hx _ IH]; cbn [fold_right]; lia.
Qed.

Lemma zprod_falling n k : (k <= n)%nat -> zprod (zrange (Z.of_nat n - Z.of_nat k + 1) (Z.of_nat n + 1)) = choose n k * zf k.
Proof.
  intros H. pose proof (choose_fact n k H) as E. pose proof (zf_pos (n - k)) as P.
  assert (Q : zf (n - k) * zprod (zrange (Z.of_nat n - Z.of_nat k + 1) (Z.of_nat n + 1)) = zf n).
  { rewrite (zf_prod n), (zrange_app 1 (Z.of_nat n - Z.of_nat k + 1)) by lia. rewrite zprod_app. f_equal.
    rewrite zf_prod. do 2 f_equal. lia. }
  rewrite <- E in Q. rewrite Z.mul_comm in Q. apply Z.mul_reg_r in Q; [exact Q|lia].
Qed.

Lemma zprod_from2 k : zprod (zrange 2 (Z.of_nat k + 1)) = zf k.
Proof.
  rewrite zf_prod. destruct k as [|k]; [reflexivity|]. rewrite (zrange_cons 1 (Z.of_nat (S k) + 1)) by lia. unfold zprod. cbn [fold_right]. rewrite Z.mul_1_l. reflexivity.
Qed.

Theorem binomial_choose n k : (k <= n)%nat -> binomial (Z.of_nat n) (Z.of_nat k) = Ret (choose n k).
Proof.
  intros H. unfold binomial. cbv zeta. set (k' := Z.min (Z.of_nat k) (Z.of_nat n - Z.of_nat k)).
  assert (Hk : exists j, k' = Z.of_nat j /\ (j <= n)%nat /\ choose n j = choose n k).
  { destruct (Z.le_gt_cases (Z.of_nat k) (Z.of_nat n - Z.of_nat k)).
    - exists k. split; [lia|auto].
    - exists (n - k)%nat. split; [lia|]. split; [lia|]. symmetry. apply choose_sym, H. }
  destruct Hk as (j & -> & Hj & <-). rewrite fold_mul, Z.mul_1_l, zprod_falling by exact Hj.
  rewrite foldM_pydiv by (apply Forall_forall; intros e He; apply zrange_In in He; lia).
  rewrite zprod_from2. f_equal. apply Z.div_mul. pose proof (zf_pos j). lia.
Qed.

Theorem number_of_combinations : forall n k : nat,
  number_of (is_combination (Z.of_nat n) (Z.of_nat k)) (choose n k).
Proof.
  induction n as [|n IH]; intros [|k].
  - apply (number_of_one _ []). intros x. split.
    + intros (H & _). destruct x; [reflexivity|cbn in H; lia].
    + intros ->. split; [reflexivity|]. split; constructor.
  - apply number_of_none. intros x (H1 & _ & H3). destruct x as [|y x]; [cbn in H1; lia|]. inversion_clear H3. lia.
  - apply (number_of_one _ []). intros x. split.
    + intros (H & _). destruct x; [reflexivity|cbn in H; lia].
    + intros ->. split; [reflexivity|]. split; constructor.
  - cbn [choose].
    apply (number_of_ext (fun d => (exists d', is_combination (Z.of_nat n) (Z.of_nat k) d' /\ d = Z.of_nat n :: d') \/
                                   is_combination (Z.of_nat n) (Z.of_nat (S k)) d)).
    + intros d. split.
      * intros [(d' & (H1 & H2 & H3) & ->)|(H1 & H2 & H3)].
        -- split; [cbn [length]; lia|]. split.
           ++ constructor; [exact H2|]. eapply Forall_impl; [|exact H3]. intros x Hx. cbv beta in Hx. lia.
           ++ constructor; [lia|]. eapply Forall_impl; [|exact H3]. intros x Hx. cbv beta in Hx. lia.
        -- split; [exact H1|]. split; [exact H2|]. eapply Forall_impl; [|exact H3]. intros x Hx. cbv beta in Hx. lia.
      * intros (H1 & H2 & H3). destruct d as [|x d]; [cbn [length] in H1; lia|]. cbn [length] in H1.
        inversion_clear H2 as [|? ? H4 H5]. inversion_clear H3 as [|? ? H6 H7]. rewrite Forall_forall in H5, H7.
        destruct (Z.eq_dec x (Z.of_nat n)) as [->|Hx].
        -- left. exists d. split; [|reflexivity]. split; [lia|]. split; [exact H4|]. apply Forall_forall. intros y Hy.
           specialize (H5 y Hy). specialize (H7 y Hy). lia.
        -- right. split; [cbn [length]; lia|]. split; [constructor; [exact H4|apply Forall_forall; exact H5]|].
           constructor; [lia|]. apply Forall_forall. intros y Hy. specialize (H5 y Hy). specialize (H7 y Hy). lia.
    + apply number_of_or.
      * intros d (d' & _ & ->) (_ & _ & H). inversion_clear H. lia.
      * apply (number_of_bij (is_combination (Z.of_nat n) (Z.of_nat k)) _ (cons (Z.of_nat n)) (@tl Z)); [| |apply IH].
        -- intros d Hd. split; [exists d; auto|reflexivity].
        -- intros d (d' & Hd & ->). split; [exact Hd|reflexivity].
      * apply IH.
Qed.

(** ** Multinomial coefficients *)
Fixpoint zfs (k : list nat) : Z := match k with [] => 1 | e :: k' => zf e * zfs k' end.

Lemma zfs_pos k : 1 <= zfs k.
Proof. induction k as [|e k IH]; cbn [zfs]; [lia|]. pose proof (zf_pos e). nia. Qed.

(** The product of the factorials divides the factorial of the sum. *)
Lemma zfs_divides : forall k n, (fold_right Nat.add O k <= n)%nat -> exists v, v * zfs k = zf n.
Proof.
  induction k as [|e k IH]; intros n H; cbn [zfs fold_right] in *.
  - exists (zf n). lia.
  - destruct (IH (n - e)%nat) as (v & Hv); [lia|]. exists (choose n e * v).
    rewrite <- (choose_fact n e) by lia. rewrite <- Hv. ring.
Qed.

Lemma factorial_zf e : factorial (Z.of_nat e) = Ret (zf e).
Proof. rewrite C25_factorial by lia. rewrite zf_prod. reflexivity. Qed.

Lemma multinomial_den k : forall a, foldM (fun den e => do f <- factorial e; Ret (den * f)) (map Z.of_nat k) a = Ret (a * zfs k).
Proof.
  induction k as [|e k IH]; intros a; cbn [map foldM zfs]; [f_equal; lia|]. rewrite factorial_zf. cbn [bind]. rewrite IH. f_equal. ring.
Qed.

Lemma zsum_of_nat k : zsum (map Z.of_nat k) = Z.of_nat (fold_right Nat.add O k).
Proof. unfold zsum. induction k as [|e k IH]; cbn [map fold_right]; [reflexivity|]. rewrite IH. lia. Qed.

Theorem multinomial_ok (n : nat) (k : list nat) : k <> [] -> (fold_right Nat.add O k <= n)%nat ->
  exists v, multinomial (Z.of_nat n) (map Z.of_nat k) = Ret v /\ v * zfs k = zf n.
Proof.
  intros Hne H. destruct (zfs_divides k n H) as (v & Hv). exists v. split; [|exact Hv]. unfold multinomial.
  rewrite zsum_of_nat. destruct (Z.gtb_spec (Z.of_nat (fold_right Nat.add 0%nat k)) (Z.of_nat n)); [lia|].
  rewrite map_length. destruct (Z.eqb_spec (len k) 0); [destruct k; [congruence|cbn [length] in *; lia]|].
  rewrite factorial_zf. cbn [bind]. rewrite multinomial_den, Z.mul_1_l. cbn [bind]. unfold pydiv.
  pose proof (zfs_pos k). destruct (Z.eqb_spec (zfs k) 0); [lia|]. rewrite <- Hv, Z.div_mul by lia. reflexivity.
Qed.

(** Arrangements of k_1 copies of 1, k_2 copies of 2, ... *)
Fixpoint multiset_of (i : Z) (k : list nat) : list Z :=
  match k with [] => [] | e :: k' => repeat i e ++ multiset_of (i + 1) k' end.

Lemma multiset_length i k : length (multiset_of i k) = fold_right Nat.add O k.
Proof. revert i. induction k as [|e k IH]; intros i; cbn [multiset_of fold_right]; [reflexivity|]. rewrite app_length, repeat_length, IH. reflexivity. Qed.

Lemma multiset_In i k x : In x (multiset_of i k) -> i <= x < i + len k.
Proof.
  revert i. induction k as [|e k IH]; intros i; cbn [multiset_of]; [intros []|]. intros H. cbn [length]. apply in_app_iff in H.
  destruct H as [H|H]; [apply repeat_spec in H; lia|]. specialize (IH _ H). lia.
Qed.

(** k with its j-th entry decreased. *)
Fixpoint dec (j : nat) (k : list nat) : list nat :=
  match j, k with
  | _, [] => []
  | O, e :: k' => pred e :: k'
  | S j', e :: k' => e :: dec j' k'
  end.

Lemma multiset_dec : forall k j i, (j < length k)%nat -> nth j k O <> O ->
  Permutation (multiset_of i k) ((i + Z.of_nat j) :: multiset_of i (dec j k)).
Proof.
  induction k as [|e k IH]; intros j i Hj Hn; cbn [length] in Hj; [lia|]. destruct j as [|j]; cbn [nth] in Hn.
  - cbn [dec multiset_of]. destruct e as [|e]; [lia|]. cbn [pred repeat app]. rewrite Z.add_0_r. reflexivity.
  - cbn [dec multiset_of]. rewrite (IH j (i + 1)) by (lia || assumption).
    replace (i + 1 + Z.of_nat j) with (i + Z.of_nat (S j)) by lia. symmetry. apply Permutation_middle.
Qed.

Lemma dec_sum : forall k j, (j < length k)%nat -> nth j k O <> O -> fold_right Nat.add O k = S (fold_right Nat.add O (dec j k)).
Proof.
  induction k as [|e k IH]; intros j Hj Hn; cbn [length] in Hj; [lia|]. destruct j as [|j]; cbn [nth] in Hn; cbn [dec fold_right].
  - lia.
  - rewrite (IH j) by (lia || assumption). lia.
Qed.

Lemma dec_zfs : forall k j, (j < length k)%nat -> nth j k O <> O -> zfs k = Z.of_nat (nth j k O) * zfs (dec j k).
Proof.
  induction k as [|e k IH]; intros j Hj Hn; cbn [length] in Hj; [lia|]. destruct j as [|j]; cbn [nth] in Hn |- *; cbn [dec zfs].
  - destruct e as [|e]; [lia|]. cbn [pred zf]. ring.
  - rewrite (IH j) by (lia || assumption). ring.
Qed.

Lemma multiset_nth_In : forall k i x, In x (multiset_of i k) ->
  exists j, (j < length k)%nat /\ x = i + Z.of_nat j /\ nth j k O <> O.
Proof.
  induction k as [|e k IH]; intros i x H; cbn [multiset_of] in H; [destruct H|]. apply in_app_iff in H. destruct H as [H|H].
  - pose proof H as H'. apply repeat_spec in H. exists 0%nat. cbn [length nth]. split; [lia|]. split; [lia|].
    destruct e; [destruct H'|lia].
  - destruct (IH _ _ H) as (j & Hj & -> & Hn). exists (S j). cbn [length nth]. split; [lia|]. split; [lia|exact Hn].
Qed.

Theorem number_of_arrangements : forall n k i, fold_right Nat.add O k = n ->
  exists v, number_of (fun w => Permutation w (multiset_of i k)) v /\ v * zfs k = zf n.
Proof.
  induction n as [|n IH]; intros k i Hn.
  - exists 1. split.
    + apply (number_of_one _ []). pose proof (multiset_length i k) as L. rewrite Hn in L. destruct (multiset_of i k); [|discriminate].
      intros x. split; [intros H; apply Permutation_nil; symmetry; exact H|intros ->; constructor].
    + clear - Hn. assert (zfs k = 1); [|rewrite H; reflexivity]. induction k as [|e k IH]; [reflexivity|]. cbn [fold_right] in Hn. cbn [zfs].
      replace e with 0%nat by lia. rewrite IH by lia. reflexivity.
  - set (idx := filter (fun j => negb (Nat.eqb (nth j k O) O)) (seq 0 (length k))).
    assert (Hidx : forall j, In j idx <-> (j < length k)%nat /\ nth j k O <> O).
    { intros j. unfold idx. rewrite filter_In, in_seq, negb_true_iff, Nat.eqb_neq. lia. }
    assert (NI : NoDup idx) by (apply NoDup_filter, seq_NoDup).
    assert (EX : forall l, (forall j, In j l -> In j idx) -> exists v : nat -> Z, forall j, In j l ->
      number_of (fun w => Permutation w (multiset_of i (dec j k))) (v j) /\ v j * zfs (dec j k) = zf n).
    { induction l as [|j l IHl]; intros Hl; [exists (fun _ => 0); intros j []|].
      destruct IHl as (v & Hv); [intros; apply Hl; right; assumption|].
      destruct (Hidx j) as [Hj _]. specialize (Hj (Hl j (or_introl eq_refl))). destruct Hj as [Hj1 Hj2].
      destruct (IH (dec j k) i) as (v0 & Hv0).
      { pose proof (dec_sum k j Hj1 Hj2). lia. }
      exists (fun j' => if Nat.eqb j' j then v0 else v j'). intros j' Hj'. destruct (Nat.eqb_spec j' j) as [->|Hne]; [exact Hv0|].
      apply Hv. destruct Hj' as [E|Hj']; [congruence|exact Hj']. }
    destruct (EX idx (fun j H => H)) as (v & Hv). exists (zsum (map v idx)). split.
    + apply (number_of_ext (fun w => exists j, In j idx /\ exists w', Permutation w' (multiset_of i (dec j k)) /\ w = (i + Z.of_nat j) :: w')).
      * intros w. split.
        -- intros (j & Hj & w' & Hw & ->). apply Hidx in Hj. rewrite (multiset_dec k j i) by apply Hj. constructor. exact Hw.
        -- intros Hw. destruct w as [|x w].
           { apply Permutation_length in Hw. rewrite multiset_length, Hn in Hw. discriminate. }
           assert (Hx : In x (multiset_of i k)) by (eapply Permutation_in; [exact Hw|left; reflexivity]).
           destruct (multiset_nth_In k i x Hx) as (j & Hj & -> & Hnz). exists j. split; [apply Hidx; auto|].
           exists w. split; [|reflexivity]. rewrite (multiset_dec k j i) in Hw by assumption. exact (Permutation_cons_inv Hw).
      * apply number_of_sum; [exact NI| |].
        -- intros j Hj. apply (number_of_bij (fun w => Permutation w (multiset_of i (dec j k))) _ (cons (i + Z.of_nat j)) (@tl Z)); [| |apply Hv, Hj].
           ++ intros w Hw. split; [exists w; auto|reflexivity].
           ++ intros w (w' & Hw & ->). split; [exact Hw|reflexivity].
        -- intros j j' w _ _ (w1 & _ & ->) (w2 & _ & E). injection E as E _. lia.
    + assert (G : forall l, (forall j, In j l -> In j idx) -> zsum (map v l) * zfs k = zf n * zsum (map (fun j => Z.of_nat (nth j k O)) l)).
      { induction l as [|j l IHl]; intros Hl; [cbn; lia|]. cbn [map]. rewrite !zsum_cons, Z.mul_add_distr_r, IHl by (intros; apply Hl; right; assumption).
        pose proof (Hl j (or_introl eq_refl)) as Hj. destruct (Hv j Hj) as [_ E]. apply Hidx in Hj.
        rewrite (dec_zfs k j) by apply Hj. rewrite <- E. ring. }
      rewrite (G idx (fun j H => H)). cbn [zf]. rewrite Z.mul_comm. f_equal. rewrite <- Hn.
      unfold idx. clear. 
      assert (H : forall p, zsum (map (fun j => Z.of_nat (nth j k 0%nat)) (filter (fun j => negb (Nat.eqb (nth j k 0%nat) 0)) p)) =
        zsum (map (fun j => Z.of_nat (nth j k 0%nat)) p)).
      { induction p as [|j p IH]; [reflexivity|]. cbn [filter map]. destruct (Nat.eqb_spec (nth j k 0%nat) 0) as [E|E]; cbn [negb].
        - rewrite zsum_cons, E, IH. lia.
        - cbn [map]. rewrite !zsum_cons, IH. reflexivity. }
      rewrite H. clear. induction k as [|e k IH]; [reflexivity|]. cbn [length seq map fold_right]. rewrite zsum_cons, <- seq_shift, map_map.
      cbn [nth]. rewrite IH. lia.
Qed.
