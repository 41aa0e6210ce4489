(** * partition_list, eta_series and delta_series are right *)
From Coq Require Import ZArith List Lia Bool.
From Verif Require Import Base Sums Count Lists Poly_Spec Poly_Model Poly_Proofs Poly_Proofs2 Pent_Spec Pent_Model Pent_Proofs Pent_Proofs2.
Import ListNotations.
Open Scope Z_scope.

Lemma pent1_mono a b : 1 <= a <= b -> pent1 a <= pent1 b.
Proof. intros H. pose proof (pent1_2 a). pose proof (pent1_2 b). nia. Qed.

Lemma partition_value_ok values m : 2 <= m < 2 ^ 45 -> m < zlen values -> (forall t, 0 <= t < m -> rd values t = p t) -> partition_value values m = Ret (p m).
Proof.
  intros Hm Hl V. unfold partition_value. destruct (max_idx_ok m ltac:(lia)) as (N & E & HN & L1 & L2). rewrite E. cbn [bind].
  destruct (foldM_range_down (fun '(total, sign) k =>
      let v1 := m - k * (3 * k - 1) / 2 in
      do t1 <- pyget values v1;
      let v2 := m - k * (3 * k + 1) / 2 in
      do t2 <- (if v2 <? 0 then Ret 0 else pyget values v2);
      Ret (total + sign * (t1 + t2), sign * (-1)))
    (fun k st => st = (Sum k (N + 1) (fun i => - sg i * (p (m - pent1 i) + p (m - pent2 i))), sg k)) 1 (N + 1) (0, (-1) ^ (N + 1))) as (st & F & I).
  - lia.
  - rewrite Sum_nil by lia. reflexivity.
  - intros k st Hk ->. cbv zeta. fold (pent1 k) (pent2 k). assert (P1 : k <= pent1 k <= m) by (split; [pose proof (pent1_2 k); nia|]; apply Z.le_trans with (pent1 N); [apply pent1_mono; lia|lia]).
    rewrite rd_get by lia. cbn [bind]. rewrite V by lia.
    assert (T2 : (if m - pent2 k <? 0 then Ret 0 else pyget values (m - pent2 k)) = Ret (p (m - pent2 k))).
    { destruct (Z.ltb_spec (m - pent2 k) 0) as [C|C]; [rewrite p_neg by lia; reflexivity|]. rewrite pent2_1 in *. rewrite rd_get by lia. rewrite V by lia. reflexivity. }
    rewrite T2. cbn [bind]. eexists. split; [reflexivity|]. rewrite (Sum_first k) by lia. f_equal; [|rewrite sg_next by lia; ring]. rewrite sg_next by lia. ring.
  - cbv zeta in F. rewrite F. subst st. cbn [bind]. f_equal. symmetry. apply p_rec; [lia|lia|]. intros k Hk. apply Z.lt_le_trans with (pent1 (N + 1)); [lia|apply pent1_mono; lia].
Qed.

Lemma p_0 : p 0 = 1. Proof. reflexivity. Qed.
Lemma p_1 : p 1 = 1. Proof. reflexivity. Qed.

Lemma partition_list_ok n : 1 <= n < 2 ^ 45 -> exists l, partition_list n = Ret l /\ zlen l = n + 1 /\ forall t, 0 <= t <= n -> rd l t = p t.
Proof.
  intros Hn. unfold partition_list. pose proof (zlen_zeros (n + 1) ltac:(lia)) as L0.
  destruct (rd_set (zeros (n + 1)) 0 1 ltac:(lia)) as (l0 & E0 & Z0 & R0). rewrite E0. cbn [bind]. destruct (rd_set l0 1 1 ltac:(lia)) as (l1 & E1 & Z1 & R1). rewrite E1. cbn [bind].
  destruct (foldM_range (fun values m => do total <- partition_value values m; pyset values m total) (fun m l => zlen l = n + 1 /\ forall t, 0 <= t < m -> rd l t = p t) 2 (n + 1) l1) as (l & F & (Zl & Rl)).
  - lia.
  - split; [lia|]. intros t Ht. rewrite R1, R0. destruct (Z.eqb_spec t 1) as [->|]; [rewrite p_1; reflexivity|]. destruct (Z.eqb_spec t 0) as [->|]; [rewrite p_0; reflexivity|lia].
  - intros m l Hm (Zl & Rl). rewrite partition_value_ok by (try assumption; lia). cbn [bind]. destruct (rd_set l m (p m) ltac:(lia)) as (l' & E' & Z' & R'). exists l'. split; [exact E'|]. split; [lia|]. intros t Ht. rewrite R'. destruct (Z.eqb_spec t m) as [->|]; [reflexivity|apply Rl; lia].
  - exists l. split; [exact F|]. split; [exact Zl|]. intros t Ht. apply Rl. lia.
Qed.

Lemma partition_number_ok n : 1 <= n < 2 ^ 45 -> partition_number n = Ret (p n).
Proof.
  intros Hn. unfold partition_number. destruct (partition_list_ok n Hn) as (l & E & L & V). rewrite E. cbn [bind]. rewrite rd_get by lia. rewrite V by lia. reflexivity.
Qed.
Lemma partition_list_nonpos n : n <= 0 -> partition_list n = Raise IndexError.
Proof.
  intros Hn. unfold partition_list, zeros. destruct (Z.eq_dec n 0) as [->|]; [reflexivity|]. replace (Z.to_nat (n + 1)) with 0%nat by lia. reflexivity.
Qed.
Lemma rth_ok r n : (n = 0 -> rth_power_partition_number r n = Ret 1) /\ (1 <= n -> rth_power_partition_number 1 n = partition_number n) /\ (1 <= n -> r <> 1 -> rth_power_partition_number r n = Raise IndexError).
Proof.
  unfold rth_power_partition_number. split; [intros ->; reflexivity|]. split.
  - intros Hn. destruct (Z.eqb_spec n 0); [lia|]. reflexivity.
  - intros Hn Hr. destruct (Z.eqb_spec n 0); [lia|]. destruct (Z.eqb_spec r 1); [lia|]. cbv zeta. pose proof (zlen_zeros (n + 1) ltac:(lia)) as L0.
    destruct (rd_set (zeros (n + 1)) 0 1 ltac:(lia)) as (l0 & E0 & _). rewrite E0. cbn [bind]. rewrite zrange_cons by lia. cbn [foldM]. unfold partition_number. rewrite partition_list_nonpos by lia. reflexivity.
Qed.

(** Powers of series that agree up to [b]. *)
Lemma cpow_upto f g k b : (forall i, 0 <= i <= b -> f i = g i) -> forall m, m <= b -> cpow f k m = cpow g k m.
Proof. intros H. induction k as [|k IH]; intros m Hm; cbn [cpow]; [reflexivity|]. apply conv_ext; intros j Hj; [apply H; lia|apply IH; lia]. Qed.

(** ** The eta series *)
Lemma eta_term_even n : 0 <= n -> eta_term (2 * n) = pent1 (n + 1).
Proof. intros H. unfold eta_term. cbv zeta. replace (2 * n / 2) with n by (rewrite Z.mul_comm, Z.div_mul; lia). replace ((2 * n) mod 2) with 0 by (rewrite Z.mul_comm, Z.mod_mul; lia). reflexivity. Qed.
Lemma eta_term_odd n : 0 <= n -> eta_term (2 * n + 1) = pent2 (n + 1).
Proof. intros H. unfold eta_term. cbv zeta. replace ((2 * n + 1) / 2) with n by (apply Z.div_unique with 1; lia). replace ((2 * n + 1) mod 2) with 1 by (apply Z.mod_unique with n; lia). reflexivity. Qed.
Lemma eta_sign_pair n : 0 <= n -> eta_sign (2 * n) = sg (n + 1) /\ eta_sign (2 * n + 1) = sg (n + 1).
Proof.
  intros H. unfold eta_sign, sg. assert (E : n = 2 * (n / 2) + n mod 2) by (apply Z.div_mod; lia). pose proof (Z.mod_pos_bound n 2 ltac:(lia)). set (c := n / 2) in *. assert (0 <= c) by (apply Z.div_pos; lia). destruct (Z.eq_dec (n mod 2) 0) as [M|M].
  - replace n with (2 * c) by lia. replace ((2 * (2 * c)) mod 4) with 0 by (apply Z.mod_unique with c; lia). replace ((2 * (2 * c) + 1) mod 4) with 1 by (apply Z.mod_unique with c; lia). cbn [Z.ltb Z.compare]. rewrite Z.pow_add_r, Z.pow_mul_r by lia. change ((-1) ^ 2) with 1. rewrite Z.pow_1_l by lia. split; reflexivity.
  - replace n with (2 * c + 1) by lia. replace ((2 * (2 * c + 1)) mod 4) with 2 by (apply Z.mod_unique with c; lia). replace ((2 * (2 * c + 1) + 1) mod 4) with 3 by (apply Z.mod_unique with c; lia). cbn [Z.ltb Z.compare]. replace (2 * c + 1 + 1) with (2 * (c + 1)) by lia. rewrite Z.pow_mul_r by lia. change ((-1) ^ 2) with 1. rewrite Z.pow_1_l by lia. split; reflexivity.
Qed.

(** The terms written before step [t]. *)
Definition written (t m : Z) : Z := unit_series m + Sum 0 t (fun i => eta_sign i * unit_series (m - eta_term i)).
Lemma eta_term_inc t : 0 <= t -> t < eta_term t /\ eta_term t < eta_term (t + 1).
Proof.
  intros H. assert (E : t = 2 * (t / 2) + t mod 2) by (apply Z.div_mod; lia). pose proof (Z.mod_pos_bound t 2 ltac:(lia)). assert (0 <= t / 2) by (apply Z.div_pos; lia). set (c := t / 2) in *. destruct (Z.eq_dec (t mod 2) 0) as [M|M].
  - replace t with (2 * c) by lia. rewrite eta_term_even, eta_term_odd by lia. rewrite pent2_1. pose proof (pent1_2 (c + 1)). nia.
  - replace (t + 1) with (2 * (c + 1)) by lia. replace t with (2 * c + 1) by lia. rewrite eta_term_even, eta_term_odd by lia. rewrite pent2_1. pose proof (pent1_2 (c + 1)). pose proof (pent1_2 (c + 1 + 1)). nia.
Qed.
Lemma eta_term_mono s t : 0 <= s < t -> eta_term s < eta_term t.
Proof.
  intros H. replace t with (s + (t - s - 1) + 1) by lia. assert (Hd : 0 <= t - s - 1) by lia. generalize (t - s - 1) Hd. intros d Hd'. pattern d. apply natlike_ind; [|intros x Hx IH|exact Hd'].
  - rewrite Z.add_0_r. apply eta_term_inc. lia.
  - unfold Z.succ. pose proof (proj2 (eta_term_inc (s + x + 1) ltac:(lia))). replace (s + (x + 1) + 1) with (s + x + 1 + 1) by lia. lia.
Qed.
Lemma written_free t m : 0 <= t -> m = eta_term t -> written t m = 0.
Proof.
  intros Ht ->. unfold written. rewrite Sum_zero; [pose proof (proj1 (eta_term_inc t Ht)); unfold unit_series; destruct (Z.eqb_spec (eta_term t) 0); lia|].
  intros i Hi. unfold unit_series. pose proof (eta_term_mono i t ltac:(lia)). destruct (Z.eqb_spec (eta_term t - eta_term i) 0); lia.
Qed.
(** Two terms for each pentagonal number. *)
Lemma written_pent n m : 0 <= n -> written (2 * n) m = pent n m.
Proof.
  intros Hn. unfold written, pent. f_equal. pattern n. apply natlike_ind; [| |exact Hn].
  - rewrite !Sum_nil by lia. reflexivity.
  - clear n Hn. intros n Hn IH. unfold Z.succ. replace (2 * (n + 1)) with (2 * n + 1 + 1) by lia. rewrite (Sum_last 0 (2 * n + 1)), (Sum_last 0 (2 * n)) by lia. rewrite IH, (Sum_last 1 (n + 1)) by lia.
    rewrite eta_term_even, eta_term_odd by lia. destruct (eta_sign_pair n Hn) as (-> & ->). ring.
Qed.
Lemma written_extend t t' m : 0 <= t <= t' -> m < eta_term t -> written t' m = written t m.
Proof.
  intros H Hm. unfold written. f_equal. apply Sum_extend; [lia|]. intros i Hi. assert (eta_term t <= eta_term i) by (destruct (Z.eq_dec t i) as [->|]; [lia|pose proof (eta_term_mono t i ltac:(lia)); lia]). unfold unit_series. destruct (Z.eqb_spec (m - eta_term i) 0); lia.
Qed.

Lemma eta_loop_ok fuel prec t l : 0 <= t -> zlen l = prec -> (forall m, 0 <= m < prec -> rd l m = written t m) -> Z.max 0 (prec - t) < Z.of_nat fuel ->
  exists l' t', eta_loop fuel prec t l = Ret l' /\ 0 <= t' /\ prec <= eta_term t' /\ zlen l' = prec /\ forall m, 0 <= m < prec -> rd l' m = written t' m.
Proof.
  revert t l. induction fuel as [|fuel IH]; intros t l Ht Hl V Hf; [lia|].
  cbn [eta_loop]. destruct (Z.leb_spec prec (eta_term t)) as [C|C]; [exists l, t; auto|].
  pose proof (proj1 (eta_term_inc t Ht)) as T1. destruct (rd_set l (eta_term t) (eta_sign t) ltac:(lia)) as (l' & E & L & R). rewrite E. cbn [bind]. apply IH; [lia|lia| |lia].
  intros m Hm. rewrite R. unfold written. rewrite Sum_last by lia. destruct (Z.eqb_spec m (eta_term t)) as [->|N].
  - pose proof (written_free t (eta_term t) Ht eq_refl) as W. unfold written in W. replace (eta_term t - eta_term t) with 0 by lia. change (unit_series 0) with 1. lia.
  - rewrite V by exact Hm. unfold written. replace (unit_series (m - eta_term t)) with 0; [lia|]. unfold unit_series. destruct (Z.eqb_spec (m - eta_term t) 0); lia.
Qed.

Lemma eta_series_ok prec : 1 <= prec -> exists l, eta_series prec = Ret l /\ zlen l = prec /\ forall m N, 0 <= m < prec -> m <= N -> rd l m = R 0 N m.
Proof.
  intros H. unfold eta_series. pose proof (zlen_zeros prec ltac:(lia)) as L0. destruct (rd_set (zeros prec) 0 1 ltac:(lia)) as (l0 & E0 & Z0 & R0). rewrite E0. cbn [bind].
  destruct (eta_loop_ok (S (Z.to_nat prec)) prec 0 l0) as (l & t & E & Ht & Hp & Hl & V); [lia|lia| |lia|].
  - intros m Hm. rewrite R0, rd_zeros. unfold written. rewrite Sum_nil by lia. unfold unit_series. destruct (m =? 0); lia.
  - exists l. split; [exact E|]. split; [exact Hl|]. intros m N Hm HN. rewrite V by exact Hm. rewrite pentagonal by lia. rewrite <- written_pent by lia.
    destruct (Z.le_ge_cases t (2 * N)) as [L|L]; [symmetry; apply written_extend; lia|]. apply written_extend; [lia|]. pose proof (proj1 (eta_term_inc (2 * N) ltac:(lia))). lia.
Qed.

Lemma delta_series_ok prec : 1 <= prec -> exists l, delta_series prec = Ret l /\ zlen l = prec /\ forall m N, 0 <= m < prec -> m <= N -> rd l m = cpow (R 0 N) 24 m.
Proof.
  intros H. unfold delta_series. destruct (eta_series_ok prec H) as (l & E & L & V). rewrite E. cbn [bind]. destruct (ps_power_ok l 24) as (P & E2 & L2 & V2); [rewrite (V 0 0) by lia; rewrite R_same; discriminate|lia|].
  exists P. split; [exact E2|]. split; [lia|]. intros m N Hm HN. rewrite V2 by lia. change (Z.to_nat 24) with 24%nat. apply cpow_upto with m; [|lia]. intros j Hj. apply V; lia.
Qed.
