(** * The index of the largest pentagonal number, computed in floating point *)
From Coq Require Import ZArith List Lia Bool QArith Qround Lqa.
From Verif Require Import Base Double_Model Double_Proofs PyFloat_Model Pent_Model Pent_Proofs.
Import ListNotations.
Open Scope Z_scope.

Lemma rne_div_exact x d : 0 < d -> rne_div (x * d) d = x.
Proof. intros H. unfold rne_div. cbv zeta. rewrite Z.div_mul, Z.mod_mul by lia. destruct (Z.ltb_spec (2 * 0) d); [reflexivity|lia]. Qed.

(** Integers below 2^53 are doubles. *)
Lemma fl_exact q z : (q == inject_Z z)%Q -> 0 < z < 2 ^ 53 -> (fl q == inject_Z z)%Q.
Proof.
  intros E Hz. destruct q as [n d]. unfold Qeq, inject_Z in E. cbn [Qnum Qden] in E. rewrite Z.mul_1_r in E. assert (Hn : 0 < n) by (rewrite E; apply Z.mul_pos_pos; lia). unfold fl. cbn [Qnum Qden]. destruct n as [|n|n]; try lia.
  unfold fl_pos. cbv zeta. pose proof (last_bit_ok (Z.pos n) (Z.pos d) Hn ltac:(lia)) as (L1 & L2). set (e := last_bit (Z.pos n) (Z.pos d)) in *. rewrite E in L1, L2. rewrite inject_Z_mult in L1, L2. pose proof (inj_pos (Z.pos d) ltac:(lia)) as PD.
  apply Qmult_le_r in L1; [|exact PD]. apply Qmult_lt_r in L2; [|exact PD].
  assert (e < 1). { assert (X : (p2 (e + 52) < p2 53)%Q) by (apply Qle_lt_trans with (inject_Z z); [exact L1|]; rewrite <- p2_Z by lia; rewrite <- Zlt_Qlt; lia). apply p2_lt_inv in X. lia. }
  assert (-53 < e). { assert (X : (p2 0 < p2 (e + 53))%Q) by (apply Qle_lt_trans with (inject_Z z); [|exact L2]; rewrite <- p2_Z by lia; rewrite <- Zle_Qle; lia). apply p2_lt_inv in X. lia. }
  replace (Z.max e (-1074)) with e by lia. rewrite E. destruct (Z.leb_spec 0 e) as [H1|H1].
  - replace e with 0 by lia. rewrite Z.pow_0_r, Z.mul_1_r, rne_div_exact by lia. rewrite scale_ok. change (p2 0) with 1%Q. lra.
  - replace (z * Z.pos d * 2 ^ (- e)) with (z * 2 ^ (- e) * Z.pos d) by ring. rewrite rne_div_exact by lia. rewrite scale_ok, inject_Z_mult, p2_Z by lia. rewrite <- Qmult_assoc, p2_opp. lra.
Qed.

Lemma Qfloor_char q z : (inject_Z z <= q)%Q -> (q < inject_Z (z + 1))%Q -> Qfloor q = z.
Proof.
  intros A B. pose proof (Qfloor_le q) as F1. pose proof (Qlt_floor q) as F2.
  assert (inject_Z (Qfloor q) < inject_Z (z + 1))%Q by lra. assert (inject_Z z < inject_Z (Qfloor q + 1))%Q by lra. rewrite <- Zlt_Qlt in *. lia.
Qed.

Lemma max_idx_ok m : 1 <= m < 2 ^ 45 -> exists k, max_idx m = Ret k /\ 1 <= k /\ pent1 k <= m < pent1 (k + 1).
Proof.
  intros Hm. unfold max_idx, sqrt_double. set (N := 1 + 24 * m). assert (HN : 25 <= N < 2 ^ 50) by lia.
  destruct (Z.leb_spec (2 ^ 1024 - 2 ^ 970) N) as [X|_]; [exfalso; assert (2 ^ 50 < 2 ^ 1024 - 2 ^ 970) by (vm_compute; reflexivity); lia|].
  unfold float_of_int. destruct (Z.ltb_spec N (2 ^ 53)) as [_|X]; [|lia]. cbv zeta.
  pose proof (Z.log2_spec N ltac:(lia)) as (G1 & G2). assert (G3 : Z.log2 N < 50) by (apply Z.log2_lt_pow2; lia). pose proof (Z.log2_nonneg N). set (g := Z.log2 N) in *. set (j := g / 2). assert (Hj : 0 <= j <= 24) by (unfold j; split; [apply Z.div_pos; lia|]; assert (g / 2 < 25) by (apply Z.div_lt_upper_bound; lia); lia).
  destruct (Z.leb_spec j 52) as [_|X]; [|lia]. cbn [bind].
  set (P := 2 ^ (52 - j)). set (T := 2 ^ (29 - j)). assert (EP : P = 2 ^ 23 * T) by (unfold P, T; rewrite <- Z.pow_add_r by lia; f_equal; lia). assert (E4 : 4 ^ (52 - j) = P * P) by (unfold P; rewrite <- Z.pow_mul_l; reflexivity). rewrite E4.
  assert (HT : 1 <= T) by (assert (0 < T) by (apply Z.pow_pos_nonneg; lia); lia). set (w := N * (P * P)). set (f := Z.sqrt w).
  pose proof (Z.sqrt_spec w) as S. assert (Hw : 0 <= w) by (apply Z.mul_nonneg_nonneg; [lia|apply Z.mul_nonneg_nonneg; lia]). specialize (S Hw). cbv zeta in S. unfold Z.succ in S. fold f in S. assert (Hf : 0 <= f) by apply Z.sqrt_nonneg.
  set (s := if w <=? f * f + f then f else f + 1). assert (Hs : f <= s <= f + 1) by (unfold s; destruct (w <=? f * f + f); lia).
  set (q := Z.sqrt N). pose proof (Z.sqrt_spec N ltac:(lia)) as SN. cbv zeta in SN. unfold Z.succ in SN. fold q in SN. assert (Hq0 : 0 <= q) by apply Z.sqrt_nonneg. assert (Hq5 : 5 <= q) by (clear - SN HN Hq0; nia). assert (Hq : q < 2 ^ 25) by (clear - SN HN Hq0; nia).
  set (k := (1 + q) / 6). pose proof (Z.div_mod (1 + q) 6 ltac:(lia)) as DM. pose proof (Z.mod_pos_bound (1 + q) 6 ltac:(lia)) as MB. fold k in DM. assert (Hk : 1 <= k) by lia.
  set (b := 6 * k - 1). assert (Hb : 5 <= b <= q /\ q < b + 6) by (unfold b; lia). assert (B2 : b * b <= N) by (apply Z.le_trans with (q * q); [apply Z.mul_le_mono_nonneg; lia|lia]). assert (A2 : N < (b + 6) * (b + 6)) by (apply Z.lt_le_trans with ((q + 1) * (q + 1)); [lia|apply Z.mul_le_mono_nonneg; lia]).
  assert (Cb : 24 * pent1 k = b * b - 1) by (pose proof (pent1_2 k) as X; unfold b; clear - X; nia). assert (Ca : 24 * pent1 (k + 1) = (b + 6) * (b + 6) - 1) by (pose proof (pent1_2 (k + 1)) as X; unfold b; clear - X; nia).
  exists k. split; [|split; [exact Hk|unfold N in B2, A2; lia]]. f_equal.
  set (r := scale s (j - 52)). assert (Er : (r * inject_Z P == inject_Z s)%Q).
  { unfold r. rewrite scale_ok. unfold P. rewrite p2_Z by lia. rewrite <- Qmult_assoc. replace (j - 52) with (- (52 - j)) by lia. rewrite p2_opp. lra. }
  clearbody r. assert (PP : (0 < inject_Z P)%Q) by (apply inj_pos; lia).
  assert (E23 : (inject_Z P == (8388608 # 1) * inject_Z T)%Q) by (rewrite EP, inject_Z_mult; reflexivity).
  assert (PT : (0 < inject_Z T)%Q) by (apply inj_pos; lia).
  (* upper bound *)
  assert (U : s <= (b + 6) * P - T).
  { destruct (Z.le_gt_cases s ((b + 6) * P - T)) as [|C]; [assumption|exfalso]. assert (F1 : (b + 6) * P - T <= f) by lia. assert (N24 : N <= (b + 6) * (b + 6) - 24) by (unfold N in *; lia).
    assert (B6 : b + 6 <= 2 ^ 26) by lia. assert (P2 : 0 <= (b + 6) * P - T) by (rewrite EP; clear - HT Hb; nia). assert (F2 : ((b + 6) * P - T) * ((b + 6) * P - T) <= w) by (apply Z.le_trans with (f * f); [apply Z.mul_le_mono_nonneg; lia|lia]).
    assert (W : w <= ((b + 6) * (b + 6) - 24) * (P * P)) by (unfold w; apply Z.mul_le_mono_nonneg_r; [apply Z.mul_nonneg_nonneg; lia|exact N24]).
    assert (X : 24 * (P * P) <= 2 * ((b + 6) * (P * T))) by (clear - F2 W HT; nia). assert (X2 : (b + 6) * (P * T) <= 2 ^ 26 * (P * T)) by (apply Z.mul_le_mono_nonneg_r; [apply Z.mul_nonneg_nonneg; lia|exact B6]).
    assert (X3 : 0 < P * T) by (apply Z.mul_pos_pos; lia). assert (X4 : P * P = 2 ^ 23 * (P * T)) by (rewrite EP at 2; ring). lia. }
  (* lower bound *)
  assert (L : N = b * b /\ s = b * P \/ b * P + T <= s).
  { destruct (Z.eq_dec N (b * b)) as [E|E].
    - left. split; [exact E|]. assert (w = (b * P) * (b * P)) by (unfold w; rewrite E; ring). assert (f = b * P) by (unfold f; rewrite H0; apply Z.sqrt_square; apply Z.mul_nonneg_nonneg; lia). unfold s. destruct (Z.leb_spec w (f * f + f)) as [|X]; [assumption|clear - X S H1 H0 Hf; rewrite <- H1 in H0; lia].
    - right. destruct (Z.le_gt_cases (b * P + T) s) as [|C]; [assumption|exfalso]. assert (N24 : b * b + 24 <= N) by (unfold N in *; lia). assert (F1 : f + 1 <= b * P + T) by lia.
      assert (F2 : w < (b * P + T) * (b * P + T)) by (apply Z.lt_le_trans with ((f + 1) * (f + 1)); [lia|apply Z.mul_le_mono_nonneg; lia]). assert (W : (b * b + 24) * (P * P) <= w) by (unfold w; apply Z.mul_le_mono_nonneg_r; [apply Z.mul_nonneg_nonneg; lia|exact N24]).
      assert (X : 24 * (P * P) < 2 * (b * (P * T)) + T * T) by (clear - F2 W; nia). assert (X2 : b * (P * T) <= 2 ^ 25 * (P * T)) by (apply Z.mul_le_mono_nonneg_r; [apply Z.mul_nonneg_nonneg; lia|lia]).
      assert (X3 : T * T <= P * T) by (apply Z.mul_le_mono_nonneg_r; lia). assert (X4 : P * P = 2 ^ 23 * (P * T)) by (rewrite EP at 2; ring). assert (X5 : 0 < P * T) by (apply Z.mul_pos_pos; lia). lia. }
  assert (Ee : (eps == 1 # 9007199254740992)%Q) by (unfold eps, p2; reflexivity).
  assert (Kb : (inject_Z b == 6 * inject_Z k - 1)%Q) by (unfold b; rewrite <- Z.add_opp_r, inject_Z_plus, inject_Z_mult; reflexivity).
  assert (Kq : (1 <= inject_Z k)%Q) by (change 1%Q with (inject_Z 1); rewrite <- Zle_Qle; exact Hk). assert (Kq2 : (inject_Z k <= 6000000)%Q) by (change 6000000%Q with (inject_Z 6000000); rewrite <- Zle_Qle; lia).
  assert (small : (p2 (-1022) <= 1)%Q) by (change 1%Q with (p2 0); apply p2_le; lia).
  (* in rationals *)
  assert (Ur : (r <= inject_Z b + 6 - (1 # 8388608))%Q).
  { apply Qmult_le_r with (z := inject_Z P); [exact PP|]. rewrite Er. rewrite Zle_Qle in U. rewrite <- Z.add_opp_r, inject_Z_plus, inject_Z_mult, inject_Z_plus, inject_Z_opp in U. change (inject_Z 6) with 6%Q in U.
    setoid_replace ((inject_Z b + 6 - (1 # 8388608)) * inject_Z P)%Q with ((inject_Z b + 6) * inject_Z P - (1 # 8388608) * inject_Z P)%Q by ring. rewrite E23 at 2. lra. }
  assert (Lr : (inject_Z b <= r)%Q).
  { apply Qmult_le_r with (z := inject_Z P); [exact PP|]. rewrite Er, <- inject_Z_mult, <- Zle_Qle. destruct L as [[_ ->]|L]; lia. }
  assert (V1 : (p2 (-1022) <= 1 + r)%Q) by lra. destruct (fl_ok (1 + r)%Q (or_intror V1)) as (A1 & A3). set (y := fl (1 + r)%Q) in *.
  assert (V2 : (p2 (-1022) <= y / 6)%Q). { apply Qle_trans with (1 # 2)%Q; [change (1 # 2)%Q with (p2 (-1)); apply p2_le; lia|]. apply Qle_shift_div_l; [lra|]. rewrite Ee in A1. lra. }
  destruct (fl_ok (y / 6)%Q (or_intror V2)) as (A4 & A5). set (z := fl (y / 6)%Q) in *.
  assert (D6 : (y / 6 == y * (1 # 6))%Q) by (unfold Qdiv; reflexivity).
  apply Qfloor_char.
  - destruct L as [[E1 E2]|L].
    + assert (Rb : (1 + r == inject_Z (6 * k))%Q). { assert (X : (r == inject_Z b)%Q) by (apply Qmult_inj_r with (inject_Z P); [lra|]; rewrite Er, E2, inject_Z_mult; reflexivity). rewrite X, Kb, inject_Z_mult. change (inject_Z 6) with 6%Q. ring. }
      assert (Yb : (y == inject_Z (6 * k))%Q) by (apply fl_exact; [exact Rb|lia]). unfold z. rewrite (fl_exact (y / 6) k); [apply Qle_refl| |lia]. rewrite Yb, inject_Z_mult. change (inject_Z 6) with 6%Q. field.
    + assert (Lr' : (inject_Z b + (1 # 8388608) <= r)%Q).
      { apply Qmult_le_r with (z := inject_Z P); [exact PP|]. rewrite Er. rewrite Zle_Qle in L. rewrite inject_Z_plus, inject_Z_mult in L.
        setoid_replace ((inject_Z b + (1 # 8388608)) * inject_Z P)%Q with (inject_Z b * inject_Z P + (1 # 8388608) * inject_Z P)%Q by ring. rewrite E23 at 2. lra. }
      rewrite Ee in A1, A4. rewrite D6 in A4. clear - A1 A4 Lr' Kb Kq Kq2. lra.
  - rewrite inject_Z_plus. rewrite Ee in A3, A5. rewrite D6 in A5. change (inject_Z 1) with 1%Q. clear - A3 A5 Ur Kb Kq Kq2. lra.
Qed.
