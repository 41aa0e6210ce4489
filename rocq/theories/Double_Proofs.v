(** * The relative error of a rounding is at most 2^-53 *)
From Coq Require Import ZArith QArith Qpower Qabs Lia Lqa.
From Verif Require Import Base Double_Model.
Open Scope Z_scope.

Lemma rne_div_ok a b : 0 < b -> 0 <= a -> 2 * Z.abs (rne_div a b * b - a) <= b.
Proof.
  intros Hb Ha. unfold rne_div. cbv zeta. pose proof (Z.div_mod a b ltac:(lia)) as D. pose proof (Z.mod_pos_bound a b Hb) as R. set (q := a / b) in *. set (r := a mod b) in *.
  pose proof (Z.mod_pos_bound q 2 ltac:(lia)) as Q2. set (t := q mod 2) in *. clearbody q r t.
  destruct (Z.ltb_spec (2 * r) b); [lia|]. destruct (Z.ltb_spec b (2 * r)); [lia|]. assert (T : t = 0 \/ t = 1) by lia. destruct T as [-> | ->]; lia.
Qed.

Definition p2 (e : Z) : Q := (2 ^ e)%Q.
Lemma p2_pos e : (0 < p2 e)%Q. Proof. apply Qpower_0_lt. reflexivity. Qed.
Lemma p2_plus a b : (p2 (a + b) == p2 a * p2 b)%Q. Proof. apply Qpower_plus. discriminate. Qed.
Lemma p2_Z e : 0 <= e -> (inject_Z (2 ^ e) == p2 e)%Q.
Proof. intros H. unfold p2. rewrite Zpower_Qpower by exact H. reflexivity. Qed.
Lemma p2_opp e : (p2 (- e) * p2 e == 1)%Q.
Proof. rewrite <- p2_plus. replace (- e + e) with 0 by ring. reflexivity. Qed.
Lemma p2_le a b : a <= b -> (p2 a <= p2 b)%Q.
Proof. intros H. apply Qpower_le_compat_l; [exact H|discriminate]. Qed.
Lemma p2_lt_inv a b : (p2 a < p2 b)%Q -> a < b.
Proof. intros H. destruct (Z_lt_le_dec a b) as [L|L]; [exact L|]. apply p2_le in L. exfalso. lra. Qed.

Lemma scale_ok m e : (scale m e == inject_Z m * p2 e)%Q.
Proof.
  unfold scale. destruct (Z.leb_spec 0 e) as [H|H].
  - rewrite inject_Z_mult, p2_Z by exact H. reflexivity.
  - rewrite Qmake_Qdiv. pose proof (Z.pow_pos_nonneg 2 (- e) ltac:(lia) ltac:(lia)) as P. replace (Z.pos (Z.to_pos (2 ^ (- e)))) with (2 ^ (- e)) by (rewrite Z2Pos.id; lia).
    rewrite p2_Z by lia. pose proof (p2_opp e) as O. pose proof (p2_pos (- e)). unfold Qdiv. apply Qmult_comp; [reflexivity|]. apply (Qmult_inj_r _ _ (p2 (- e))); [lra|]. rewrite Qmult_comm, Qmult_inv_r by lra. rewrite Qmult_comm. symmetry. exact O.
Qed.

Lemma log2_bounds n : 0 < n -> (p2 (Z.log2 n) <= inject_Z n)%Q /\ (inject_Z n < p2 (Z.log2 n + 1))%Q.
Proof.
  intros H. pose proof (Z.log2_spec n H) as (A & B). pose proof (Z.log2_nonneg n). split.
  - rewrite <- p2_Z by lia. rewrite <- Zle_Qle. exact A.
  - rewrite <- p2_Z by lia. rewrite <- Zlt_Qlt. exact B.
Qed.

Lemma inj_pos n : 0 < n -> (0 < inject_Z n)%Q.
Proof. intros H. change 0%Q with (inject_Z 0). rewrite <- Zlt_Qlt. exact H. Qed.

(** The last bit: 2^52 <= q / 2^e < 2^53; only the first half is needed. *)
Lemma last_bit_ok n d : 0 < n -> 0 < d -> (p2 (last_bit n d + 52) * inject_Z d <= inject_Z n)%Q /\ (inject_Z n < p2 (last_bit n d + 53) * inject_Z d)%Q.
Proof.
  intros Hn Hd. unfold last_bit. cbv zeta. set (l := Z.log2 n - Z.log2 d). destruct (log2_bounds n Hn) as (N1 & N2). destruct (log2_bounds d Hd) as (D1 & D2).
  pose proof (inj_pos d Hd) as PD. pose proof (inj_pos n Hn) as PN.
  assert (Up : (inject_Z n < p2 (l + 1) * inject_Z d)%Q).
  { eapply Qlt_le_trans; [exact N2|]. replace (Z.log2 n + 1) with (l + 1 + Z.log2 d) by (unfold l; ring). rewrite p2_plus. pose proof (p2_pos (l + 1)). rewrite !(Qmult_comm (p2 (l + 1))). apply Qmult_le_compat_r; [exact D1|lra]. }
  assert (Lo : (p2 (l - 1) * inject_Z d <= inject_Z n)%Q).
  { eapply Qle_trans; [|exact N1]. replace (Z.log2 n) with (l - 1 + (Z.log2 d + 1)) by (unfold l; ring). rewrite p2_plus. pose proof (p2_pos (l - 1)). rewrite !(Qmult_comm (p2 (l - 1))). apply Qmult_le_compat_r; [lra|lra]. }
  assert (Test : (if 0 <=? l then d * 2 ^ l <=? n else d <=? n * 2 ^ (- l)) = true <-> (p2 l * inject_Z d <= inject_Z n)%Q).
  { destruct (Z.leb_spec 0 l) as [L|L].
    - rewrite Z.leb_le, Zle_Qle, inject_Z_mult, p2_Z by exact L. rewrite (Qmult_comm (p2 l)). reflexivity.
    - rewrite Z.leb_le, Zle_Qle, inject_Z_mult, p2_Z by lia. pose proof (p2_opp l) as O. pose proof (p2_pos l). pose proof (p2_pos (- l)). split; intros T.
      + assert (X : (inject_Z d * p2 l <= inject_Z n * p2 (- l) * p2 l)%Q) by (apply Qmult_le_compat_r; lra). rewrite <- Qmult_assoc, O in X. lra.
      + assert (X : (p2 l * inject_Z d * p2 (- l) <= inject_Z n * p2 (- l))%Q) by (apply Qmult_le_compat_r; lra). setoid_replace (p2 l * inject_Z d * p2 (- l))%Q with (p2 (- l) * p2 l * inject_Z d)%Q in X by ring. rewrite O in X. lra. }
  destruct (if 0 <=? l then _ else _) eqn:E.
  - replace (l - 52 + 52) with l by ring. replace (l - 52 + 53) with (l + 1) by ring. split; [apply Test; reflexivity|exact Up].
  - replace (l - 53 + 52) with (l - 1) by ring. replace (l - 53 + 53) with l by ring. split; [exact Lo|]. apply Qnot_le_lt. intros T. apply Test in T. congruence.
Qed.

Lemma fl_pos_ok n d : 0 < n -> 0 < d -> (p2 (-1022) * inject_Z d <= inject_Z n)%Q ->
  (Qabs (fl_pos n d * inject_Z d - inject_Z n) <= p2 (-53) * inject_Z n)%Q.
Proof.
  intros Hn Hd Hm. destruct (last_bit_ok n d Hn Hd) as (L1 & L2). pose proof (inj_pos d Hd) as PD. unfold fl_pos. cbv zeta.
  assert (E : Z.max (last_bit n d) (-1074) = last_bit n d).
  { assert (X : (p2 (-1022) * inject_Z d < p2 (last_bit n d + 53) * inject_Z d)%Q) by lra. apply Qmult_lt_r in X; [|exact PD]. apply p2_lt_inv in X. lia. }
  rewrite E. set (e := last_bit n d) in *. clearbody e. clear E Hm L2. rewrite scale_ok.
  set (A := if 0 <=? e then n else n * 2 ^ (- e)). set (B := if 0 <=? e then d * 2 ^ e else d).
  assert (M : (if 0 <=? e then rne_div n (d * 2 ^ e) else rne_div (n * 2 ^ (- e)) d) = rne_div A B) by (unfold A, B; destruct (0 <=? e); reflexivity). rewrite M. clear M.
  assert (HA : 0 <= A) by (unfold A; destruct (0 <=? e); [lia|apply Z.mul_nonneg_nonneg; [lia|apply Z.pow_nonneg; lia]]).
  assert (HB : 0 < B). { unfold B. destruct (Z.leb_spec 0 e) as [X|X]; [|exact Hd]. pose proof (Z.pow_pos_nonneg 2 e). nia. }
  assert (Rel : (inject_Z B * inject_Z n == inject_Z A * p2 e * inject_Z d)%Q).
  { unfold A, B. destruct (Z.leb_spec 0 e) as [X|X].
    - rewrite inject_Z_mult, p2_Z by exact X. ring.
    - rewrite inject_Z_mult, p2_Z by lia. pose proof (p2_opp e) as O. setoid_replace (inject_Z n * p2 (- e) * p2 e * inject_Z d)%Q with (p2 (- e) * p2 e * (inject_Z n * inject_Z d))%Q by ring. rewrite O. ring. }
  pose proof (rne_div_ok A B HB HA) as R. set (m := rne_div A B) in *. clearbody m A B. pose proof (inj_pos B HB) as PB. pose proof (p2_pos e) as PE.
  assert (R1 : (Qabs (inject_Z m * inject_Z B - inject_Z A) * 2 <= inject_Z B)%Q).
  { assert (X : (inject_Z (2 * Z.abs (m * B - A)) <= inject_Z B)%Q) by (rewrite <- Zle_Qle; exact R). rewrite inject_Z_mult in X. change (inject_Z (Z.abs (m * B - A))) with (Qabs (inject_Z (m * B - A))) in X. unfold Z.sub in X. rewrite inject_Z_plus, inject_Z_opp, inject_Z_mult in X. change (inject_Z 2) with (2#1)%Q in X. unfold Qminus. lra. }
  (* multiply by B *)
  apply Qmult_le_r with (z := inject_Z B); [exact PB|]. 
  assert (Eq : (Qabs (inject_Z m * p2 e * inject_Z d - inject_Z n) * inject_Z B == Qabs (inject_Z m * inject_Z B - inject_Z A) * (p2 e * inject_Z d))%Q).
  { assert (P1 : (Qabs (inject_Z B) == inject_Z B)%Q) by (apply Qabs_pos; lra). assert (Ped : (0 < p2 e * inject_Z d)%Q) by (apply Qmult_lt_0_compat; assumption). assert (P2 : (Qabs (p2 e * inject_Z d) == p2 e * inject_Z d)%Q) by (apply Qabs_pos; lra).
    rewrite <- P1 at 1. rewrite <- P2 at 1. rewrite <- !Qabs_Qmult. apply Qabs_wd. setoid_replace ((inject_Z m * p2 e * inject_Z d - inject_Z n) * inject_Z B)%Q with (inject_Z m * inject_Z B * (p2 e * inject_Z d) - inject_Z B * inject_Z n)%Q by ring. rewrite Rel. ring. }
  rewrite Eq. assert (Ped : (0 < p2 e * inject_Z d)%Q) by (apply Qmult_lt_0_compat; assumption).
  assert (S1 : (Qabs (inject_Z m * inject_Z B - inject_Z A) * (p2 e * inject_Z d) * 2 <= inject_Z B * (p2 e * inject_Z d))%Q).
  { setoid_replace (Qabs (inject_Z m * inject_Z B - inject_Z A) * (p2 e * inject_Z d) * 2)%Q with (Qabs (inject_Z m * inject_Z B - inject_Z A) * 2 * (p2 e * inject_Z d))%Q by ring. apply Qmult_le_compat_r; lra. }
  assert (S2 : (p2 e * inject_Z d * p2 52 <= inject_Z n)%Q) by (rewrite p2_plus in L1; lra).
  assert (S3 : (inject_Z B * (p2 e * inject_Z d) * p2 52 <= inject_Z B * inject_Z n)%Q).
  { setoid_replace (inject_Z B * (p2 e * inject_Z d) * p2 52)%Q with (p2 e * inject_Z d * p2 52 * inject_Z B)%Q by ring. rewrite (Qmult_comm (inject_Z B) (inject_Z n)). apply Qmult_le_compat_r; lra. }
  assert (H52 : (p2 52 == 4503599627370496)%Q) by reflexivity. assert (H53 : (p2 (-53) == 1 # 9007199254740992)%Q) by reflexivity. rewrite H52 in S3. rewrite H53. lra.
Qed.

(** The two forms in which the bound is used. *)
Definition eps : Q := p2 (-53).
Lemma fl_ok q : (q == 0)%Q \/ (p2 (-1022) <= q)%Q -> ((1 - eps) * q <= fl q)%Q /\ (fl q <= (1 + eps) * q)%Q.
Proof.
  intros H. unfold fl. destruct q as [[|n|n] d]; cbn [Qnum Qden].
  - split; unfold Qle; cbn; lia.
  - destruct H as [H|H]; [discriminate H|]. pose proof (fl_pos_ok (Z.pos n) (Z.pos d) ltac:(lia) ltac:(lia)) as E. set (v := fl_pos (Z.pos n) (Z.pos d)) in *. clearbody v.
    pose proof (inj_pos (Z.pos d) ltac:(lia)) as PD. assert (Q : (Z.pos n # d == inject_Z (Z.pos n) / inject_Z (Z.pos d))%Q) by apply Qmake_Qdiv.
    assert (Qd : ((Z.pos n # d) * inject_Z (Z.pos d) == inject_Z (Z.pos n))%Q) by (rewrite Q; field; lra).
    assert (Hm : (p2 (-1022) * inject_Z (Z.pos d) <= inject_Z (Z.pos n))%Q) by (rewrite <- Qd; apply Qmult_le_compat_r; lra). specialize (E Hm). apply Qabs_Qle_condition in E as (E1 & E2). rewrite <- Qd in E1, E2. fold eps in E1, E2. clear Q Qd Hm H. generalize dependent (Z.pos n # d)%Q. intros q E1 E2.
    split; apply Qmult_le_r with (z := inject_Z (Z.pos d)); try exact PD.
    + lra.
    + lra.
  - exfalso. destruct H as [H|H]; [discriminate H|]. pose proof (p2_pos (-1022)). assert (X : (Z.neg n # d < 0)%Q) by reflexivity. lra.
Qed.
