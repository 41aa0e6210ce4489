(** * Where [int(n**0.5)] is wrong: one below a square *)
From Coq Require Import ZArith Lia.
From Verif Require Import Base PyFloat_Model PyFloat_Proofs.
Open Scope Z_scope.

(** One below a square the conversion to a double loses little ... *)
Lemma below_square_float a : 2 ^ 26 < a <= 2 ^ 52 -> forall j, 0 <= j <= 52 ->
  4 ^ j <= float_of_int (a * a - 1) < 4 ^ (j + 1) -> 2 ^ (52 - j) * (a * a - float_of_int (a * a - 1)) < a.
Proof.
  intros Ha j Hj HJ. set (n := a * a - 1) in *.
  assert (Hn : 2 ^ 52 <= n < 2 ^ 104) by (unfold n; change (2 ^ 52) with (2 ^ 26 * 2 ^ 26); change (2 ^ 104) with (2 ^ 52 * 2 ^ 52); nia).
  destruct (float_of_int_spec n ltac:(lia)) as (B & Vs & Vb). cbv zeta in *. assert (P4 : forall e, 0 <= e -> 4 ^ e = 2 ^ (2 * e)) by (intros; rewrite Z.pow_mul_r by lia; reflexivity).
  assert (Hl : 2 * j + 2 > Z.log2 n).
  { apply Z.lt_gt. apply (Z.pow_lt_mono_r_iff 2); [lia|lia|]. eapply Z.le_lt_trans; [apply B|]. replace (2 * j + 2) with (2 * (j + 1)) by lia. rewrite <- P4 by lia. apply HJ. }
  pose proof (Z.log2_spec n ltac:(lia)) as [L1 L2]. set (l := Z.log2 n) in *.
  destruct (Z_lt_le_dec n (2 ^ 53)) as [H|H].
  - rewrite (Vs H). replace (a * a - n) with 1 by (unfold n; lia). assert (Hl52 : 52 <= l) by (apply Z.log2_le_pow2; lia). assert (2 ^ (52 - j) <= 2 ^ 26) by (apply Z.pow_le_mono_r; lia). lia.
  - specialize (Vb H). assert (Hl53 : 53 <= l) by (apply Z.log2_le_pow2; lia). destruct (Z.eq_dec l 53) as [E|E].
    + (* ties go to the multiple of four *)
      assert (D : a * a - float_of_int n <= 1).
      { unfold float_of_int. destruct (Z.ltb_spec n (2 ^ 53)); [lia|]. fold l. rewrite E. change (53 - 52) with 1. unfold rne. change (2 ^ 1) with 2.
        pose proof (Z.div_mod n 2 ltac:(lia)) as DM. pose proof (Z.mod_pos_bound n 2 ltac:(lia)) as MB. set (q := n / 2) in *. set (r := n mod 2) in *.
        pose proof (Z.div_mod q 2 ltac:(lia)) as DM2. pose proof (Z.mod_pos_bound q 2 ltac:(lia)) as MB2. destruct (Z.ltb_spec (2 * r) 2); [unfold n in *; lia|]. destruct (Z.ltb_spec 2 (2 * r)); [lia|].
        assert (r = 1) by lia. destruct (Z.Even_or_Odd a) as [(b & Eb)|(b & Eb)].
        - assert (q mod 2 = 1); [|unfold n in *; lia]. assert (q = 2 * (b * b) - 1) by (unfold n in *; subst a; lia). lia.
        - exfalso. unfold n in *. subst a. lia. }
      assert (2 ^ (52 - j) <= 2 ^ 26) by (apply Z.pow_le_mono_r; lia). assert (0 < 2 ^ (52 - j)) by (apply Z.pow_pos_nonneg; lia). nia.
    + set (d := a * a - float_of_int n). assert (Hd : d <= 1 + 2 ^ (l - 53)).
      { assert (2 ^ (l - 52) = 2 * 2 ^ (l - 53)) by (replace (l - 52) with (Z.succ (l - 53)) by lia; apply Z.pow_succ_r; lia). unfold d, n in *. lia. }
      assert (Pj : 0 < 2 ^ (52 - j)) by (apply Z.pow_pos_nonneg; lia).
      pose proof (Z.div_mod l 2 ltac:(lia)) as Dl. pose proof (Z.mod_pos_bound l 2 ltac:(lia)) as Ml. set (i := l / 2) in *.
      assert (Hi : 27 <= i <= j) by lia. assert (Q : 0 < 2 ^ i) by (apply Z.pow_pos_nonneg; lia).
      assert (A1 : 2 ^ (52 - j) * 1 <= 2 ^ (i - 2)) by (rewrite Z.mul_1_r; apply Z.pow_le_mono_r; lia).
      assert (A2 : 2 ^ (52 - j) * 2 ^ (l - 53) <= 2 ^ (l - i - 1)) by (rewrite <- Z.pow_add_r by lia; apply Z.pow_le_mono_r; lia).
      assert (A3 : 4 * 2 ^ (i - 2) = 2 ^ i) by (change 4 with (2 ^ 2); rewrite <- Z.pow_add_r by lia; f_equal; lia).
      assert (S : 2 ^ (52 - j) * d <= 2 ^ (i - 2) + 2 ^ (l - i - 1)) by nia.
      assert (Ln : 2 ^ l < a * a) by (unfold n in *; lia).
      assert (l = 2 * i \/ l = 2 * i + 1) as [El|El] by lia; rewrite El in S, Ln.
      * replace (2 * i - i - 1) with (i - 1) in S by lia. assert (2 * 2 ^ (i - 1) = 2 ^ i) by (rewrite <- Z.pow_succ_r by lia; f_equal; lia). replace (2 * i) with (i + i) in Ln by lia. rewrite Z.pow_add_r in Ln by lia. nia.
      * replace (2 * i + 1 - i - 1) with i in S by lia. replace (2 * i + 1) with (Z.succ (i + i)) in Ln by lia. rewrite Z.pow_succ_r, Z.pow_add_r in Ln by lia. nia.
Qed.

(** ... so the root is rounded up to an integer. *)
Lemma int_pow_half_below_square a : 2 ^ 26 < a <= 2 ^ 52 -> int_pow_half (a * a - 1) = Ret a.
Proof.
  intros Ha. assert (Hn : 0 < a * a - 1 < 2 ^ 104) by (change (2 ^ 104) with (2 ^ 52 * 2 ^ 52); nia).
  destruct (int_pow_half_bounds (a * a - 1) ltac:(lia)) as (r & E & Hr). assert (Sq : Z.sqrt (a * a - 1) = a - 1) by (apply Z.sqrt_unique; unfold Z.succ; lia). rewrite Sq in Hr.
  rewrite E. f_equal. destruct (int_pow_half_eq _ Hn) as (j & s & Hj & HJ & E' & Lo & _). cbv zeta in *. assert (Er : s / 2 ^ (52 - j) = r) by congruence.
  pose proof (below_square_float a Ha j Hj HJ) as F. set (P := 2 ^ (52 - j)) in *. assert (HP : 0 < P) by (apply Z.pow_pos_nonneg; lia).
  enough (X : a <= s / P) by (rewrite Er in X; clear -Hr X; lia). apply Z.div_le_lower_bound; [lia|]. rewrite Z.mul_comm. apply Lo; [nia|].
  replace (4 ^ (52 - j)) with (P * P) by (unfold P; rewrite <- Z.pow_mul_l; reflexivity). nia.
Qed.

(** Below [2^53] it is wrong nowhere else. *)
Lemma int_pow_half_exact_53 n : 2 ^ 52 <= n < 2 ^ 53 -> (forall a, n + 1 <> a * a) -> int_pow_half n = Ret (Z.sqrt n).
Proof.
  intros Hn N. destruct (int_pow_half_bounds n ltac:(lia)) as (r & E0 & Hr). destruct (int_pow_half_eq n ltac:(lia)) as (j & s & Hj & HJ & E & Lo & Hi). cbv zeta in *.
  destruct (float_of_int_spec n ltac:(lia)) as (_ & Vs & _). cbv zeta in *. specialize (Vs ltac:(lia)). rewrite Vs in HJ, Lo, Hi.
  assert (Er : r = s / 2 ^ (52 - j)) by congruence. rewrite E. f_equal. enough (s / 2 ^ (52 - j) < Z.sqrt n + 1) by lia. clear Er E E0 Hr.
  assert (j = 26).
  { assert (j < 27) by (apply (Z.pow_lt_mono_r_iff 4); [lia|lia|]; eapply Z.le_lt_trans; [apply HJ|]; assert (2 ^ 53 < 4 ^ 27) by reflexivity; lia).
    assert (26 < j + 1) by (apply (Z.pow_lt_mono_r_iff 4); [lia|lia|]; eapply Z.le_lt_trans; [|apply HJ]; assert (4 ^ 26 = 2 ^ 52) by reflexivity; lia). lia. }
  subst j. change (2 ^ (52 - 26)) with (2 ^ 26). change (4 ^ (52 - 26)) with (2 ^ 26 * 2 ^ 26) in *.
  pose proof (Z.sqrt_spec n ltac:(lia)) as S. cbv zeta in S. pose proof (Z.sqrt_nonneg n) as S0. set (k := Z.sqrt n) in *.
  apply Z.div_lt_upper_bound; [lia|]. rewrite Z.mul_comm. apply Hi; [lia|].
  assert (Hk : k + 1 <= 2 ^ 27) by (assert (k < 2 ^ 27); [|lia]; apply Z.square_lt_simpl_nonneg; [lia|]; assert (2 ^ 53 < 2 ^ 27 * 2 ^ 27) by reflexivity; lia).
  assert (n <= (k + 1) * (k + 1) - 2) by (specialize (N (k + 1)); unfold Z.succ in S; lia). change (2 ^ 27) with (2 * 2 ^ 26) in Hk. set (P := 2 ^ 26) in *. assert (0 < P) by reflexivity. nia.
Qed.
