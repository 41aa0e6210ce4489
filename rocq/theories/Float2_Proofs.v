(** * int(n**0.5) is exact on squares *)
From Coq Require Import ZArith Lia.
From Verif Require Import Base PyFloat_Model PyFloat_Proofs Core_Model Core_Proofs2 Core_Props.
Open Scope Z_scope.

Lemma int_pow_half_square k : 0 <= k -> k * k < 2 ^ 104 -> int_pow_half (k * k) = Ret k.
Proof.
  intros Hk Hn. destruct (Z.eq_dec k 0) as [->|Hk0]; [vm_compute; reflexivity|].
  destruct (int_pow_half_bounds (k * k) ltac:(nia)) as (r & Er & Hr). rewrite Z.sqrt_square in Hr by lia. rewrite Er. f_equal.
  assert (Hn0 : 0 < k * k) by nia. set (n := k * k) in *.
  destruct (int_pow_half_eq n ltac:(lia)) as (j & s & Hj & HJ & E & Lo & Hi).
  cbv zeta in *.
  destruct (float_of_int_spec n ltac:(lia)) as (B & Vs & Vb). cbv zeta in *.
  set (v := float_of_int n) in *.
  assert (Es : r = s / 2 ^ (52 - j)) by congruence. enough (r < k + 1) by lia. rewrite Es. clear Er Es Hr r.
  set (p := 52 - j) in *.
  assert (HP : 0 < 2 ^ p) by (apply Z.pow_pos_nonneg; lia).
  assert (E4 : 4 ^ p = 2 ^ p * 2 ^ p) by (rewrite <- Z.pow_mul_l; reflexivity).
  assert (HJ1 : 4 ^ j = 2 ^ j * 2 ^ j) by (rewrite <- Z.pow_mul_l; reflexivity).
  assert (HJ2 : 4 ^ (j + 1) = 4 * (2 ^ j * 2 ^ j)) by (rewrite Z.pow_add_r, HJ1 by lia; ring).
  assert (Hpj : 0 < 2 ^ j) by (apply Z.pow_pos_nonneg; lia).
  assert (Hk1 : 0 < k) by lia.
  assert (Hpp : 2 ^ j * 2 ^ p = 2 ^ 52) by (rewrite <- Z.pow_add_r by lia; f_equal; lia).
  (* distance between n and v *)
  assert (Hd : v = n \/ 2 ^ p * (2 * Z.abs (n - v)) <= 2 * 2 ^ j).
  { destruct (Z_lt_le_dec n (2 ^ 53)) as [H|H]; [left; auto|right].
    specialize (Vb H).
    assert (Hl : 53 <= Z.log2 n) by (rewrite <- (Z.log2_pow2 53) by lia; apply Z.log2_le_mono; exact H).
    assert (Hlj : Z.log2 n < 2 * j + 2).
    { apply Z.pow_lt_mono_r_iff with 2; try lia.
      eapply Z.le_lt_trans; [apply B|]. rewrite HJ2 in HJ.
      replace (2 * j + 2) with (j + j + 2) by lia. rewrite !Z.pow_add_r by lia.
      change (2 ^ 2) with 4. lia. }
    assert (H0 : 2 ^ p * 2 ^ (Z.log2 n - 52) <= 2 * 2 ^ j).
    { rewrite <- Z.pow_add_r by lia. rewrite <- (Z.pow_succ_r 2 j) by lia.
      apply Z.pow_le_mono_r; lia. }
    etransitivity; [|exact H0]. apply Z.mul_le_mono_nonneg_l; [lia|exact Vb]. }
  assert (HJv : 2 ^ j * 2 ^ j <= v) by lia.
  assert (Hnk : n <= k * k) by lia. clearbody v n p. clear - Hnk Hk1 HP Hpj Hd Hi E4 HJv.
  set (P := 2 ^ p) in *. set (J := 2 ^ j) in *. clearbody P J.
  assert (HkP : 0 < k * P) by (apply Z.mul_pos_pos; lia).
  apply Z.div_lt_upper_bound; [lia|]. rewrite Z.mul_comm.
  enough (s < k * P + 1) by lia.
  apply Hi; [lia|].
  rewrite E4.
  assert (HV : v <= k * k \/ v - k * k <= Z.abs (n - v)) by lia.
  destruct HV as [HV|HV]; [apply ineq_hi1; lia|].
  destruct Hd as [Hd|Hd]; [apply ineq_hi1; lia|].
  pose proof (ineq_abs P (n - v) J HP Hd _ HV) as HB.
  apply (ineq_hi2 P J); try lia.
  apply (ineq_J P J k v); lia.
Qed.

(** Hence [integer_sqrt] is exact on squares, and so decides them. *)
Lemma integer_sqrt_square k : 0 <= k -> integer_sqrt (k * k) = Ret k.
Proof.
  intros Hk. unfold integer_sqrt. destruct (Z.ltb_spec (k * k) 0); [nia|]. destruct (Z.eqb_spec (k * k) 0) as [E|]; [cbn [orb]; f_equal; nia|]. destruct (Z.eqb_spec (k * k) 1) as [E|]; [cbn [orb]; f_equal; nia|]. cbn [orb].
  destruct (Z.leb_spec (k * k) (2 ^ 60)) as [L|G].
  - apply int_pow_half_square; [exact Hk|]. apply Z.le_lt_trans with (2 ^ 60); [exact L|reflexivity].
  - pose proof (integer_sqrt_big (k * k) G) as E. unfold integer_sqrt in E. destruct (Z.ltb_spec (k * k) 0); [lia|]. destruct (Z.eqb_spec (k * k) 0); [lia|]. destruct (Z.eqb_spec (k * k) 1); [lia|]. cbn [orb] in E. destruct (Z.leb_spec (k * k) (2 ^ 60)); [lia|]. rewrite E, Z.sqrt_square by exact Hk. reflexivity.
Qed.

Lemma square_test t : 0 <= t -> exists b, integer_sqrt t = Ret b /\ 0 <= b /\ (b * b = t <-> exists k, t = k * k).
Proof.
  intros Ht. destruct (C04_integer_sqrt_near t Ht) as (b & E & Hb). pose proof (Z.sqrt_nonneg t). exists b. split; [exact E|]. split; [lia|]. split; [intros <-; exists b; reflexivity|].
  intros (k & ->). assert (E' : integer_sqrt (Z.abs k * Z.abs k) = Ret (Z.abs k)) by (apply integer_sqrt_square; lia). replace (Z.abs k * Z.abs k) with (k * k) in E' by lia. rewrite E in E'. injection E' as ->. lia.
Qed.
