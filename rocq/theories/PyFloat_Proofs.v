(** * Accuracy of [int(n**0.5)] *)
From Coq Require Import ZArith Lia.
From Verif Require Import Base PyFloat_Model.
Open Scope Z_scope.

Lemma rne_lower a k : 0 <= k -> 2 * (a - rne a k * 2 ^ k) <= 2 ^ k.
Proof.
  intros Hk. unfold rne. assert (0 < 2 ^ k) by (apply Z.pow_pos_nonneg; lia).
  pose proof (Z.div_mod a (2 ^ k) ltac:(lia)) as E.
  pose proof (Z.mod_pos_bound a (2 ^ k) ltac:(lia)) as B.
  set (q := a / 2 ^ k) in *. set (r := a mod 2 ^ k) in *. set (K := 2 ^ k) in *.
  pose proof (Z.mod_pos_bound q 2 ltac:(lia)).
  destruct (Z.ltb_spec (2 * r) K); [nia|].
  destruct (Z.ltb_spec K (2 * r)); nia.
Qed.

Lemma rne_upper a k : 0 <= k -> 2 * (rne a k * 2 ^ k - a) <= 2 ^ k.
Proof.
  intros Hk. unfold rne. assert (0 < 2 ^ k) by (apply Z.pow_pos_nonneg; lia).
  pose proof (Z.div_mod a (2 ^ k) ltac:(lia)) as E.
  pose proof (Z.mod_pos_bound a (2 ^ k) ltac:(lia)) as B.
  set (q := a / 2 ^ k) in *. set (r := a mod 2 ^ k) in *. set (K := 2 ^ k) in *.
  pose proof (Z.mod_pos_bound q 2 ltac:(lia)).
  destruct (Z.ltb_spec (2 * r) K); [nia|].
  destruct (Z.ltb_spec K (2 * r)); nia.
Qed.

(** The conversion keeps the value within half a unit in the last place, and
    within the same binade from below. *)
Lemma float_of_int_spec n : 0 < n ->
  let v := float_of_int n in
  2 ^ Z.log2 n <= v <= 2 ^ (Z.log2 n + 1) /\
  (n < 2 ^ 53 -> v = n) /\
  (2 ^ 53 <= n -> 2 * Z.abs (n - v) <= 2 ^ (Z.log2 n - 52)).
Proof.
  intros Hn. cbv zeta. unfold float_of_int.
  pose proof (Z.log2_spec n Hn) as [L1 L2].
  destruct (Z.ltb_spec n (2 ^ 53)) as [H|H].
  - repeat split; try lia.
  - assert (Hl : 53 <= Z.log2 n) by (rewrite <- (Z.log2_pow2 53) by lia; apply Z.log2_le_mono; exact H).
    set (l := Z.log2 n) in *. set (k := l - 52).
    pose proof (rne_lower n k ltac:(lia)) as R1. pose proof (rne_upper n k ltac:(lia)) as R2.
    assert (0 < 2 ^ k) by (apply Z.pow_pos_nonneg; lia).
    assert (E1 : 2 ^ l = 2 ^ 52 * 2 ^ k) by (rewrite <- Z.pow_add_r by lia; f_equal; lia).
    assert (E2 : 2 ^ (l + 1) = 2 ^ 53 * 2 ^ k) by (rewrite <- Z.pow_add_r by lia; f_equal; lia).
    replace (Z.succ l) with (l + 1) in L2 by lia.
    repeat split; try lia.
    + (* lower *)
      rewrite E1. apply Z.mul_le_mono_nonneg_r; [lia|].
      assert (2 ^ 52 * 2 ^ k - 2 ^ k < rne n k * 2 ^ k) by lia.
      enough (2 ^ 52 - 1 < rne n k) by lia. apply (Z.mul_lt_mono_pos_r (2 ^ k)); lia.
    + rewrite E2. apply Z.mul_le_mono_nonneg_r; [lia|].
      assert (rne n k * 2 ^ k < 2 ^ 53 * 2 ^ k + 2 ^ k) by lia.
      enough (rne n k < 2 ^ 53 + 1) by lia. apply (Z.mul_lt_mono_pos_r (2 ^ k)); lia.
Qed.

Lemma sqrt_ge s w : 0 <= s -> s * s <= w -> s <= Z.sqrt w.
Proof. intros Hs H. apply Z.sqrt_le_square; nia. Qed.

(** Pure inequalities used below. *)
Lemma ineq_s1 w f t : 0 <= f -> f * f <= w -> w <= f * f + f -> 0 < t ->
  (2 * t - 1) * (2 * t - 1) < 4 * w -> t <= f.
Proof. intros. destruct (Z_le_gt_dec t f); [assumption|]. assert (2 * f + 1 <= 2 * t - 1) by lia. nia. Qed.
Lemma ineq_s2 w f t : 0 <= f -> w < (f + 1) * (f + 1) -> 0 < t ->
  (2 * t - 1) * (2 * t - 1) < 4 * w -> t <= f + 1.
Proof. intros. destruct (Z_le_gt_dec t (f + 1)); [assumption|]. assert (2 * f + 3 <= 2 * t - 1) by lia. nia. Qed.
Lemma ineq_s3 w f t : 0 <= f -> f * f <= w -> 0 < t ->
  4 * w < (2 * t - 1) * (2 * t - 1) -> f < t.
Proof. intros. destruct (Z_lt_le_dec f t); [assumption|]. assert (2 * t - 1 <= 2 * f) by lia. nia. Qed.
Lemma ineq_s4 w f t : 0 <= f -> f * f + f < w -> 0 < t ->
  4 * w < (2 * t - 1) * (2 * t - 1) -> f + 1 < t.
Proof. intros. destruct (Z_lt_le_dec (f + 1) t); [assumption|]. assert (2 * t - 1 <= 2 * f + 1) by lia. nia. Qed.
Lemma ineq_lo1 P k v : 0 < P -> 0 < k -> k * k <= v ->
  (2 * (k * P) - 1) * (2 * (k * P) - 1) < 4 * (v * (P * P)).
Proof.
  intros. assert (0 < k * P) by nia.
  assert (k * k * (P * P) <= v * (P * P)) by (apply Z.mul_le_mono_nonneg_r; nia). nia.
Qed.
Lemma ineq_lo2 P J k v : 0 < P -> 0 < J -> J + 1 <= k -> P * (k * k - v) <= J ->
  (2 * (k * P) - 1) * (2 * (k * P) - 1) < 4 * (v * (P * P)).
Proof.
  intros. assert (P * (P * (k * k - v)) <= P * (k - 1)) by (apply Z.mul_le_mono_nonneg_l; lia). nia.
Qed.
Lemma ineq_hi1 P k v : 0 < P -> 0 < k -> v <= k * k ->
  4 * (v * (P * P)) < (2 * (k * P + 1) - 1) * (2 * (k * P + 1) - 1).
Proof.
  intros. assert (0 < k * P) by nia.
  assert (v * (P * P) <= k * k * (P * P)) by (apply Z.mul_le_mono_nonneg_r; nia). nia.
Qed.
Lemma ineq_hi2 P J k v : 0 < P -> 0 < J -> 0 < k -> J <= k -> P * (v - k * k) <= J ->
  4 * (v * (P * P)) < (2 * (k * P + 1) - 1) * (2 * (k * P + 1) - 1).
Proof.
  intros. assert (P * (P * (v - k * k)) <= P * k) by (apply Z.mul_le_mono_nonneg_l; lia). nia.
Qed.
Lemma ineq_ex P k n : 0 < P -> 0 <= k -> n < (k + 1) * (k + 1) -> k + 1 <= P ->
  4 * (n * (P * P)) < (2 * ((k + 1) * P) - 1) * (2 * ((k + 1) * P) - 1).
Proof.
  intros. assert (n * (P * P) <= ((k + 1) * (k + 1) - 1) * (P * P)) by (apply Z.mul_le_mono_nonneg_r; nia).
  assert ((k + 1) * P <= P * P) by (apply Z.mul_le_mono_nonneg_r; lia). nia.
Qed.
Lemma ineq_abs P X J : 0 < P -> P * (2 * Z.abs X) <= 2 * J -> forall Y, Y <= Z.abs X -> P * Y <= J.
Proof. intros HP H Y HY. assert (P * Y <= P * Z.abs X) by (apply Z.mul_le_mono_nonneg_l; lia). lia. Qed.
Lemma ineq_J P J k v : 0 < P -> 0 < J -> 0 < k -> J * J <= v -> P * (v - k * k) <= J -> J <= k.
Proof.
  intros. destruct (Z_le_gt_dec J k); [assumption|exfalso].
  destruct (Z_le_gt_dec v (k * k)); [nia|].
  assert (1 * (v - k * k) <= P * (v - k * k)) by (apply Z.mul_le_mono_nonneg_r; lia).
  assert (v - k * k <= J) by lia. nia.
Qed.

(** Core facts about the rounded root of [v], [0 < v < 2^106]. *)
Lemma int_pow_half_eq n : 0 < n < 2 ^ 104 ->
  exists j s, let v := float_of_int n in
    0 <= j <= 52 /\ 4 ^ j <= v < 4 ^ (j + 1) /\
    int_pow_half n = Ret (s / 2 ^ (52 - j)) /\
    (forall t, 0 < t -> (2 * t - 1) * (2 * t - 1) < 4 * (v * 4 ^ (52 - j)) -> t <= s) /\
    (forall t, 0 < t -> 4 * (v * 4 ^ (52 - j)) < (2 * t - 1) * (2 * t - 1) -> s < t).
Proof.
  intros Hn. cbv zeta.
  destruct (float_of_int_spec n ltac:(lia)) as (B & _ & _).
  set (v := float_of_int n) in *.
  assert (Hl : Z.log2 n < 104) by (apply Z.log2_lt_pow2; lia).
  assert (Hl0 := Z.log2_nonneg n).
  assert (Hv : 0 < v) by (assert (0 < 2 ^ Z.log2 n) by (apply Z.pow_pos_nonneg; lia); lia).
  assert (Hv2 : v <= 2 ^ 104).
  { etransitivity; [apply B|]. apply Z.pow_le_mono_r; lia. }
  assert (HL : Z.log2 v <= 104) by (rewrite <- (Z.log2_pow2 104) by lia; apply Z.log2_le_mono; exact Hv2).
  pose proof (Z.log2_nonneg v) as HL0.
  set (j := Z.log2 v / 2).
  pose proof (Z.div_mod (Z.log2 v) 2 ltac:(lia)) as D. fold j in D.
  pose proof (Z.mod_pos_bound (Z.log2 v) 2 ltac:(lia)) as M.
  assert (Hj : 0 <= j <= 52) by lia.
  pose proof (Z.log2_spec v Hv) as [V1 V2].
  assert (P4 : forall e, 0 <= e -> 4 ^ e = 2 ^ (2 * e)) by (intros; rewrite Z.pow_mul_r by lia; reflexivity).
  assert (HJ : 4 ^ j <= v < 4 ^ (j + 1)).
  { rewrite !P4 by lia. split.
    - etransitivity; [|exact V1]. apply Z.pow_le_mono_r; lia.
    - eapply Z.lt_le_trans; [exact V2|]. apply Z.pow_le_mono_r; lia. }
  set (w := v * 4 ^ (52 - j)). set (f := Z.sqrt w).
  exists j, (if w <=? f * f + f then f else f + 1).
  split; [exact Hj|]. split; [exact HJ|].
  assert (0 < 4 ^ (52 - j)) by (apply Z.pow_pos_nonneg; lia).
  pose proof (Z.sqrt_spec w ltac:(unfold w; nia)) as F. cbv zeta in F. fold f in F.
  assert (0 <= f) by apply Z.sqrt_nonneg.
  split.
  { unfold int_pow_half. destruct (Z.leb_spec (2 ^ 1024 - 2 ^ 970) n) as [Hbig|Hbig].
    - exfalso. assert (2 ^ 104 < 2 ^ 1024 - 2 ^ 970) by (vm_compute; reflexivity). lia.
    - fold v. destruct (Z.eqb_spec v 0); [lia|]. fold j.
      destruct (Z.leb_spec j 52); [|lia]. fold w. fold f. reflexivity. }
  split.
  - intros t Ht H1. destruct (Z.leb_spec w (f * f + f)).
    + apply (ineq_s1 w); auto. apply F.
    + apply (ineq_s2 w); auto. replace (f + 1) with (Z.succ f) by lia. apply F.
  - intros t Ht H1. destruct (Z.leb_spec w (f * f + f)).
    + apply (ineq_s3 w); auto. apply F.
    + apply (ineq_s4 w); auto.
Qed.

(** Never too small, and too large by at most one. *)
Lemma int_pow_half_bounds n : 0 <= n < 2 ^ 104 ->
  exists r, int_pow_half n = Ret r /\ Z.sqrt n <= r <= Z.sqrt n + 1.
Proof.
  intros Hn. destruct (Z.eq_dec n 0) as [->|Hn0].
  { exists 0. split; [vm_compute; reflexivity|]. simpl. lia. }
  destruct (int_pow_half_eq n ltac:(lia)) as (j & s & Hj & HJ & E & Lo & Hi).
  cbv zeta in *.
  destruct (float_of_int_spec n ltac:(lia)) as (B & Vs & Vb). cbv zeta in *.
  set (v := float_of_int n) in *.
  exists (s / 2 ^ (52 - j)). split; [exact E|].
  set (p := 52 - j) in *.
  assert (HP : 0 < 2 ^ p) by (apply Z.pow_pos_nonneg; lia).
  assert (E4 : 4 ^ p = 2 ^ p * 2 ^ p) by (rewrite <- Z.pow_mul_l; reflexivity).
  assert (HJ1 : 4 ^ j = 2 ^ j * 2 ^ j) by (rewrite <- Z.pow_mul_l; reflexivity).
  assert (HJ2 : 4 ^ (j + 1) = 4 * (2 ^ j * 2 ^ j)) by (rewrite Z.pow_add_r, HJ1 by lia; ring).
  assert (Hpj : 0 < 2 ^ j) by (apply Z.pow_pos_nonneg; lia).
  pose proof (Z.sqrt_spec n ltac:(lia)) as S. cbv zeta in S.
  pose proof (Z.sqrt_nonneg n) as S0. set (k := Z.sqrt n) in *.
  assert (Hk1 : 0 < k) by (apply Z.sqrt_pos; lia).
  assert (Hpp : 2 ^ j * 2 ^ p = 2 ^ 52) by (rewrite <- Z.pow_add_r by lia; f_equal; lia).
  (* distance between n and v *)
  assert (Hd : v = n \/ 2 ^ p * (2 * Z.abs (n - v)) <= 2 * 2 ^ j).
  { destruct (Z_lt_le_dec n (2 ^ 53)) as [H|H]; [left; auto|right].
    specialize (Vb H).
    assert (Hl : 53 <= Z.log2 n) by (rewrite <- (Z.log2_pow2 53) by lia; apply Z.log2_le_mono; exact H).
    assert (Hlj : Z.log2 n < 2 * j + 2).
    { apply Z.pow_lt_mono_r_iff with 2; try lia.
      eapply Z.le_lt_trans; [apply B|]. rewrite HJ2 in HJ.
      replace (2 * j + 2) with (j + j + 2) by lia. rewrite !Z.pow_add_r by lia.
      change (2 ^ 2) with 4. lia. }
    assert (H0 : 2 ^ p * 2 ^ (Z.log2 n - 52) <= 2 * 2 ^ j).
    { rewrite <- Z.pow_add_r by lia. rewrite <- (Z.pow_succ_r 2 j) by lia.
      apply Z.pow_le_mono_r; lia. }
    etransitivity; [|exact H0]. apply Z.mul_le_mono_nonneg_l; [lia|exact Vb]. }
  assert (HJv : 2 ^ j * 2 ^ j <= v) by lia.
  clearbody v k p. clear - S Hk1 HP Hpj Hd Lo Hi E4 HJv.
  set (P := 2 ^ p) in *. set (J := 2 ^ j) in *. clearbody P J.
  assert (HkP : 0 < k * P) by (apply Z.mul_pos_pos; lia).
  split.
  - (* lower bound *)
    apply Z.div_le_lower_bound; [lia|]. rewrite Z.mul_comm. apply Lo; [lia|].
    rewrite E4.
    destruct (Z_le_gt_dec (k * k) v) as [Hv|Hv]; [apply ineq_lo1; lia|].
    assert (Hkv : k * k - v <= Z.abs (n - v)) by lia.
    destruct Hd as [->|Hd]; [lia|].
    apply (ineq_lo2 P J); try lia.
    + clear - HJv Hv Hpj Hk1. nia.
    + eapply ineq_abs; eauto.
  - (* upper bound *)
    enough (s / P < k + 2) by lia.
    apply Z.div_lt_upper_bound; [lia|]. rewrite Z.mul_comm.
    enough (s < (k + 1) * P + 1) by lia.
    apply Hi; [lia|].
    rewrite E4.
    assert (HV : v <= (k + 1) * (k + 1) \/ v - (k + 1) * (k + 1) <= Z.abs (n - v)) by lia.
    destruct HV as [HV|HV]; [apply ineq_hi1; lia|].
    destruct Hd as [Hd|Hd]; [apply ineq_hi1; lia|].
    pose proof (ineq_abs P (n - v) J HP Hd _ HV) as HB.
    apply (ineq_hi2 P J); try lia.
    apply (ineq_J P J (k + 1) v); lia.
Qed.

(** Exact below [2^52]. *)
Lemma int_pow_half_exact n : 0 <= n < 2 ^ 52 -> int_pow_half n = Ret (Z.sqrt n).
Proof.
  intros Hn. destruct (int_pow_half_bounds n ltac:(lia)) as (r & E0 & Hr).
  destruct (Z.eq_dec n 0) as [->|Hn0]; [vm_compute; reflexivity|].
  destruct (int_pow_half_eq n ltac:(lia)) as (j & s & Hj & HJ & E & Lo & Hi).
  cbv zeta in *.
  destruct (float_of_int_spec n ltac:(lia)) as (_ & Vs & _). cbv zeta in *.
  specialize (Vs ltac:(lia)). rewrite Vs in HJ, Lo, Hi.
  assert (Er : r = s / 2 ^ (52 - j)) by congruence. rewrite E. f_equal.
  enough (s / 2 ^ (52 - j) < Z.sqrt n + 1) by lia. clear Er E E0 Hr.
  set (p := 52 - j) in *.
  assert (HP : 0 < 2 ^ p) by (apply Z.pow_pos_nonneg; lia).
  assert (E4 : 4 ^ p = 2 ^ p * 2 ^ p) by (rewrite <- Z.pow_mul_l; reflexivity).
  pose proof (Z.sqrt_spec n ltac:(lia)) as S. cbv zeta in S.
  pose proof (Z.sqrt_nonneg n) as S0. set (k := Z.sqrt n) in *.
  apply Z.div_lt_upper_bound; [lia|]. rewrite Z.mul_comm. apply Hi; [apply Z.mul_pos_pos; lia|].
  assert (Hjj : j <= 25).
  { destruct (Z_le_gt_dec j 25); [assumption|exfalso].
    assert (4 ^ 26 <= 4 ^ j) by (apply Z.pow_le_mono_r; lia). change (4 ^ 26) with (2 ^ 52) in *. lia. }
  assert (HPk : k + 1 <= 2 ^ p).
  { assert (2 ^ 27 <= 2 ^ p) by (apply Z.pow_le_mono_r; lia).
    assert (k < 2 ^ 26) by (apply Z.square_lt_simpl_nonneg; [lia|]; change (2 ^ 26 * 2 ^ 26) with (2 ^ 52); lia).
    lia. }
  rewrite E4. apply ineq_ex; lia.
Qed.

(** ... but not below [2^60]: [int((2**60 - 1)**0.5) == 2**30]. *)
Lemma int_pow_half_inexact : int_pow_half (2 ^ 60 - 1) = Ret (2 ^ 30) /\ Z.sqrt (2 ^ 60 - 1) = 2 ^ 30 - 1.
Proof. vm_compute. split; reflexivity. Qed.
