(** * Rounding: it does not depend on how the fraction is written, integers up to 2^53 are exact *)
From Coq Require Import ZArith QArith Qpower Qabs Lia Lqa.
From Verif Require Import Base Double_Model Double_Proofs.
Open Scope Z_scope.

Lemma rne_div_scale k a b : 0 < k -> 0 < b -> rne_div (k * a) (k * b) = rne_div a b.
Proof.
  intros Hk Hb. unfold rne_div. cbv zeta. rewrite Z.div_mul_cancel_l by lia. rewrite Z.mul_mod_distr_l by lia.
  set (q := a / b). set (r := a mod b). clearbody q r.
  assert (A : (2 * (k * r) <? k * b) = (2 * r <? b)) by (destruct (Z.ltb_spec (2 * (k * r)) (k * b)), (Z.ltb_spec (2 * r) b); try reflexivity; exfalso; nia).
  assert (B : (k * b <? 2 * (k * r)) = (b <? 2 * r)) by (destruct (Z.ltb_spec (k * b) (2 * (k * r))), (Z.ltb_spec b (2 * r)); try reflexivity; exfalso; nia).
  rewrite A, B. reflexivity.
Qed.

Lemma rne_div_eq a b c d : 0 < b -> 0 < d -> a * d = c * b -> rne_div a b = rne_div c d.
Proof.
  intros Hb Hd E. rewrite <- (rne_div_scale d a b), <- (rne_div_scale b c d) by assumption. f_equal; nia.
Qed.

Lemma last_bit_unique n d e : 0 < n -> 0 < d -> (p2 (e + 52) * inject_Z d <= inject_Z n)%Q -> (inject_Z n < p2 (e + 53) * inject_Z d)%Q -> last_bit n d = e.
Proof.
  intros Hn Hd A B. destruct (last_bit_ok n d Hn Hd) as (C & D). pose proof (inj_pos d Hd) as P. set (l := last_bit n d) in *. clearbody l.
  assert (X : (p2 (e + 52) * inject_Z d < p2 (l + 53) * inject_Z d)%Q) by lra. assert (Y : (p2 (l + 52) * inject_Z d < p2 (e + 53) * inject_Z d)%Q) by lra.
  apply Qmult_lt_r in X; [|exact P]. apply Qmult_lt_r in Y; [|exact P]. apply p2_lt_inv in X, Y. lia.
Qed.

Lemma fl_pos_eq n d n' d' : 0 < n -> 0 < d -> 0 < n' -> 0 < d' -> n * d' = n' * d -> fl_pos n d = fl_pos n' d'.
Proof.
  intros Hn Hd Hn' Hd' E. assert (L : last_bit n' d' = last_bit n d).
  { destruct (last_bit_ok n d Hn Hd) as (A & B). set (e := last_bit n d) in *. clearbody e. pose proof (inj_pos d Hd) as PD. pose proof (inj_pos d' Hd') as PD'.
    assert (EQ : (inject_Z n * inject_Z d' == inject_Z n' * inject_Z d)%Q) by (rewrite <- !inject_Z_mult, E; reflexivity).
    apply last_bit_unique; [exact Hn'|exact Hd'| |].
    - apply Qmult_le_r with (z := inject_Z d); [exact PD|]. rewrite <- EQ. setoid_replace (p2 (e + 52) * inject_Z d' * inject_Z d)%Q with (p2 (e + 52) * inject_Z d * inject_Z d')%Q by ring. apply Qmult_le_compat_r; lra.
    - apply Qmult_lt_r with (z := inject_Z d); [exact PD|]. rewrite <- EQ. setoid_replace (p2 (e + 53) * inject_Z d' * inject_Z d)%Q with (p2 (e + 53) * inject_Z d * inject_Z d')%Q by ring. apply Qmult_lt_r; [exact PD'|exact B]. }
  unfold fl_pos. cbv zeta. rewrite L. set (e := Z.max (last_bit n d) (-1074)). f_equal. destruct (Z.leb_spec 0 e) as [X|X].
  - pose proof (Z.pow_pos_nonneg 2 e ltac:(lia) X). apply rne_div_eq; nia.
  - apply rne_div_eq; [lia|lia|nia].
Qed.

Lemma fl_eq q q' : (q == q')%Q -> fl q = fl q'.
Proof.
  intros E. unfold fl. destruct q as [[|n|n] d], q' as [[|n'|n'] d']; unfold Qeq in E; cbn [Qnum Qden] in *; try reflexivity; try (exfalso; lia).
  - apply fl_pos_eq; lia.
  - f_equal. apply fl_pos_eq; lia.
Qed.

Lemma rne_div_1 a : rne_div a 1 = a.
Proof. unfold rne_div. cbv zeta. rewrite Z.div_1_r, Z.mod_1_r. reflexivity. Qed.

Lemma fl_int m : 0 <= m <= 2 ^ 53 -> (fl (inject_Z m) == inject_Z m)%Q.
Proof.
  intros H. destruct (Z.eq_dec m (2 ^ 53)) as [->|N]; [reflexivity|]. destruct m as [|p|p]; [reflexivity| |lia]. unfold fl, inject_Z at 1 2. cbn [Qnum Qden].
  set (m := Z.pos p) in *. assert (Hm : 0 < m) by (unfold m; lia). change (fl_pos m 1 == inject_Z m)%Q.
  destruct (log2_bounds m Hm) as (A & B). pose proof (Z.log2_nonneg m) as N0. assert (N1 : Z.log2 m < 53) by (apply Z.log2_lt_pow2; lia).
  assert (L : last_bit m 1 = Z.log2 m - 52).
  { apply last_bit_unique; [exact Hm|lia| |]; change (inject_Z 1) with 1%Q; rewrite Qmult_1_r; [replace (Z.log2 m - 52 + 52) with (Z.log2 m) by lia; exact A|replace (Z.log2 m - 52 + 53) with (Z.log2 m + 1) by lia; exact B]. }
  unfold fl_pos. cbv zeta. rewrite L, Z.max_l by lia. rewrite scale_ok. destruct (Z.leb_spec 0 (Z.log2 m - 52)) as [X|X].
  - assert (E : Z.log2 m = 52) by lia. rewrite E. change (1 * 2 ^ (52 - 52)) with 1. rewrite rne_div_1. change (p2 (52 - 52)) with 1%Q. ring.
  - rewrite rne_div_1, inject_Z_mult, p2_Z by lia. pose proof (p2_opp (Z.log2 m - 52)) as O. rewrite <- Qmult_assoc, O. ring.
Qed.

Lemma flt_int m : 0 <= m <= 2 ^ 53 -> exists q, flt m = Ret q /\ (q == inject_Z m)%Q.
Proof.
  intros H. exists (fl (inject_Z m)). split; [|apply fl_int, H]. unfold flt. destruct (Z.leb_spec (2 ^ 1024 - 2 ^ 970) (Z.abs m)) as [X|X]; [exfalso|reflexivity].
  assert (Y : 2 ^ 53 < 2 ^ 1024 - 2 ^ 970) by reflexivity. lia.
Qed.

(** A fraction below 1 whose denominator is not too large is not rounded up to 1. *)
Lemma fl_below n d : 0 <= n < d -> d <= 2 ^ 53 -> (fl (inject_Z n / inject_Z d) < 1)%Q.
Proof.
  intros (Hn & Hd) Hb. assert (PD : 0 < d) by lia. pose proof (inj_pos d PD) as QD.
  destruct (Z.eq_dec n 0) as [->|N]. { rewrite (fl_eq _ 0); [reflexivity|]. unfold Qdiv. ring. }
  assert (PN : 0 < n) by lia. rewrite (fl_eq _ (n # Z.to_pos d)) by (rewrite Qmake_Qdiv, Z2Pos.id by lia; reflexivity).
  unfold fl. cbn [Qnum Qden]. replace (match n with 0 => 0%Q | Z.pos n0 => fl_pos (Z.pos n0) (Z.pos (Z.to_pos d)) | Z.neg n0 => (- fl_pos (Z.pos n0) (Z.pos (Z.to_pos d)))%Q end) with (fl_pos n d) by (rewrite Z2Pos.id by lia; destruct n; [lia|reflexivity|lia]).
  destruct (last_bit_ok n d PN PD) as (A & _). assert (L : last_bit n d < -52).
  { assert (X : (p2 (last_bit n d + 52) * inject_Z d < p2 0 * inject_Z d)%Q). { eapply Qle_lt_trans; [exact A|]. change (p2 0) with 1%Q. rewrite Qmult_1_l, <- Zlt_Qlt. exact Hd. } apply Qmult_lt_r in X; [|exact QD]. apply p2_lt_inv in X. lia. }
  unfold fl_pos. cbv zeta. set (e := Z.max (last_bit n d) (-1074)). assert (He : e <= -53) by lia. clearbody e. rewrite scale_ok. destruct (Z.leb_spec 0 e); [lia|].
  assert (K : 2 ^ 53 <= 2 ^ (- e)) by (apply Z.pow_le_mono_r; lia). pose proof (rne_div_ok (n * 2 ^ (- e)) d PD ltac:(nia)) as R. set (m := rne_div (n * 2 ^ (- e)) d) in *. clearbody m.
  assert (M : m < 2 ^ (- e)). { set (k := 2 ^ (- e)) in *. clearbody k. assert (n * k <= (d - 1) * k) by nia. nia. }
  pose proof (p2_pos e) as PE. assert (X : (inject_Z m * p2 e < inject_Z (2 ^ (- e)) * p2 e)%Q) by (apply Qmult_lt_r; [exact PE|rewrite <- Zlt_Qlt; exact M]). rewrite p2_Z, p2_opp in X by lia. exact X.
Qed.
