(** * The Lucas-Lehmer test *)
From Coq Require Import ZArith List Bool Lia Znumtheory Setoid Morphisms.
From Verif Require Import Base Py Lists Lists2 Sums NT NT_Euler Arith_Spec Arith_Proofs NT_Cong NT_Prim QR_Spec NT_QR Enum_Proofs Primality_Model.
Import ListNotations.
Open Scope Z_scope.

(** ** The ring Z[sqrt 3] *)
Definition mul (x y : Z * Z) : Z * Z := (fst x * fst y + 3 * (snd x * snd y), fst x * snd y + snd x * fst y).
Definition one : Z * Z := (1, 0).
Fixpoint pw (x : Z * Z) (n : nat) : Z * Z := match n with O => one | S n' => mul x (pw x n') end.

Lemma pair_eq (x y : Z * Z) : fst x = fst y -> snd x = snd y -> x = y.
Proof. destruct x, y. cbn. intros -> ->. reflexivity. Qed.
Lemma mul_comm x y : mul x y = mul y x. Proof. apply pair_eq; cbn [mul fst snd]; ring. Qed.
Lemma mul_assoc x y z : mul x (mul y z) = mul (mul x y) z. Proof. apply pair_eq; cbn [mul fst snd]; ring. Qed.
Lemma mul_1 x : mul one x = x. Proof. apply pair_eq; unfold mul, one, fst, snd; destruct x; ring. Qed.
Lemma pw_add x n m : pw x (n + m) = mul (pw x n) (pw x m).
Proof. induction n as [|n IH]; cbn [pw Nat.add]; [rewrite mul_1; reflexivity|]. rewrite IH, mul_assoc. reflexivity. Qed.
Lemma pw_one n : pw one n = one.
Proof. induction n as [|n IH]; [reflexivity|]. cbn [pw]. rewrite IH. apply mul_1. Qed.
Lemma pw_prod x y n : pw (mul x y) n = mul (pw x n) (pw y n).
Proof. induction n as [|n IH]; [reflexivity|]. cbn [pw]. rewrite IH. rewrite !mul_assoc. f_equal. rewrite <- !mul_assoc. f_equal. apply mul_comm. Qed.
Lemma pw_mul x n m : pw x (n * m) = pw (pw x n) m.
Proof. rewrite Nat.mul_comm. induction m as [|m IH]; [reflexivity|]. cbn [pw Nat.mul]. rewrite pw_add, IH. reflexivity. Qed.

(** Congruence of pairs. *)
Definition pc (m : Z) (x y : Z * Z) : Prop := cg m (fst x) (fst y) /\ cg m (snd x) (snd y).
Global Instance pc_equiv m : Equivalence (pc m).
Proof. split; [intros x; split; reflexivity|intros x y (A & B); split; symmetry; assumption|intros x y z (A & B) (C & D); split; etransitivity; eassumption]. Qed.
Global Instance pc_mul m : Proper (pc m ==> pc m ==> pc m) mul.
Proof. intros x y (A & B) x' y' (C & D). split; cbn [mul fst snd]; rewrite A, B, C, D; reflexivity. Qed.
Global Instance pc_pw m : Proper (pc m ==> eq ==> pc m) pw.
Proof. intros x y E n n' <-. induction n as [|n IH]; [reflexivity|]. cbn [pw]. apply pc_mul; assumption. Qed.

(** ** The sequence 4, 14, 194, ... *)
Fixpoint sq (n : nat) : Z := match n with O => 4 | S n' => sq n' * sq n' - 2 end.

Definition w : Z * Z := (2, 1).
Definition w' : Z * Z := (2, -1).
Lemma w_inv n : mul (pw w n) (pw w' n) = one.
Proof. rewrite <- pw_prod. change (mul w w') with one. apply pw_one. Qed.
Lemma norm_w n : fst (pw w n) * fst (pw w n) - 3 * (snd (pw w n) * snd (pw w n)) = 1.
Proof.
  induction n as [|n IH]; [reflexivity|]. cbn [pw mul fst snd w]. set (a := fst (pw w n)) in *. set (b := snd (pw w n)) in *. lia.
Qed.
Lemma sq_w n : sq n = 2 * fst (pw w (2 ^ n)).
Proof.
  induction n as [|n IH]; [reflexivity|]. cbn [sq]. rewrite IH. cbn [Nat.pow]. rewrite Nat.mul_comm, pw_mul. pose proof (norm_w (2 ^ n)) as N. set (z := pw w (2 ^ n)) in *. cbn [pw mul fst snd one]. nia.
Qed.
Lemma w_double n : pw w (2 ^ S n) = (2 * (fst (pw w (2 ^ n)) * fst (pw w (2 ^ n))) - 1, 2 * (fst (pw w (2 ^ n)) * snd (pw w (2 ^ n)))).
Proof.
  cbn [Nat.pow]. rewrite Nat.mul_comm, pw_mul. pose proof (norm_w (2 ^ n)) as N. set (z := pw w (2 ^ n)) in *. apply pair_eq; cbn [pw mul fst snd one]; nia.
Qed.

(** ** If the test succeeds the Mersenne number is prime *)
Section Suf.
Context (q : Z) (n : nat).
Hypothesis q_prime : prime q.
Hypothesis q_odd : q <> 2.
Hypothesis q_div : (q | sq n).

Lemma half_minus1 : pc q (pw w (2 ^ S n)) (-1, 0).
Proof using All.
  assert (C : cg q (fst (pw w (2 ^ n))) 0).
  { apply cg_0. rewrite sq_w in q_div. apply prime_mult in q_div; [|exact q_prime]. destruct q_div as [D|D]; [|exact D]. exfalso. pose proof (prime_ge2 q q_prime). apply Z.divide_pos_le in D; lia. }
  rewrite w_double. split; cbn [fst snd].
  - rewrite C. reflexivity.
  - rewrite C. reflexivity.
Qed.

Lemma odd_part (d : nat) : (0 < d)%nat -> exists k o, d = (2 ^ k * (2 * o + 1))%nat.
Proof.
  induction d as [d IH] using lt_wf_ind. intros Hd. destruct (Nat.Even_or_Odd d) as [(e & E)|(e & E)].
  - destruct (IH e) as (k & o & Eo); [lia|lia|]. exists (S k), o. cbn [Nat.pow]. lia.
  - exists 0%nat, e. cbn [Nat.pow]. lia.
Qed.

Lemma minus1_pw o : pw (-1, 0) (2 * o + 1) = (-1, 0).
Proof. rewrite pw_add, pw_mul. change (pw (-1, 0) 2) with one. rewrite pw_one, mul_1. reflexivity. Qed.

Lemma not_one d : (0 < d < 2 ^ (n + 2))%nat -> ~ pc q (pw w d) one.
Proof using All.
  intros Hd E. destruct (odd_part d) as (k & o & Ed); [lia|]. assert (Hk : (k < n + 2)%nat).
  { apply Nat.nle_gt. intros L. apply (Nat.pow_le_mono_r 2) in L; [|lia]. nia. }
  assert (A : pc q (pw w (2 ^ S n * (2 * o + 1))) one).
  { replace (2 ^ S n * (2 * o + 1))%nat with (d * 2 ^ (S n - k))%nat.
    - rewrite pw_mul, E, pw_one. reflexivity.
    - rewrite Ed. replace (2 ^ S n)%nat with (2 ^ k * 2 ^ (S n - k))%nat by (rewrite <- Nat.pow_add_r; f_equal; lia). lia. }
  rewrite pw_mul, half_minus1, minus1_pw in A. destruct A as (A & _). cbn in A. apply cg_div in A. pose proof (prime_ge2 q q_prime). apply Z.divide_opp_r in A. apply Z.divide_pos_le in A; cbn in *; lia.
Qed.

Definition code (i : nat) : Z := (fst (pw w i) mod q) * q + snd (pw w i) mod q.

Lemma code_inj i j : (i < j < 2 ^ (n + 2))%nat -> code i <> code j.
Proof using All.
  intros H E. pose proof (prime_ge2 q q_prime) as Q. unfold code in E.
  pose proof (Z.mod_pos_bound (fst (pw w i)) q ltac:(lia)). pose proof (Z.mod_pos_bound (snd (pw w i)) q ltac:(lia)).
  pose proof (Z.mod_pos_bound (fst (pw w j)) q ltac:(lia)). pose proof (Z.mod_pos_bound (snd (pw w j)) q ltac:(lia)).
  assert (P : pc q (pw w i) (pw w j)).
  { assert (F : fst (pw w i) mod q = fst (pw w j) mod q) by nia. split; constructor; [exact F|]. rewrite F in E. lia. }
  apply (not_one (j - i)); [lia|]. replace j with (i + (j - i))%nat in P by lia. rewrite pw_add in P.
  assert (R : pc q (mul (pw w' i) (pw w i)) (mul (pw w' i) (mul (pw w i) (pw w (j - i))))) by (rewrite <- P; reflexivity).
  rewrite mul_assoc, (mul_comm (pw w' i)), w_inv, mul_1 in R. symmetry. exact R.
Qed.

Lemma code_range i : 1 <= code i < q * q.
Proof using All.
  pose proof (prime_ge2 q q_prime) as Q. unfold code. pose proof (Z.mod_pos_bound (fst (pw w i)) q ltac:(lia)) as A. pose proof (Z.mod_pos_bound (snd (pw w i)) q ltac:(lia)) as B.
  split; [|nia]. assert (N : code i <> 0); [|unfold code in N; nia]. intros Z0. unfold code in Z0. assert (F : fst (pw w i) mod q = 0) by nia. assert (G : snd (pw w i) mod q = 0) by nia.
  pose proof (norm_w i) as M. apply Z.mod_divide in F; [|lia]. apply Z.mod_divide in G; [|lia]. assert (D : (q | 1)).
  { rewrite <- M. apply Z.divide_sub_r; [apply Z.divide_mul_l; exact F|]. apply Z.divide_mul_r, Z.divide_mul_l. exact G. }
  apply Z.divide_pos_le in D; lia.
Qed.

Lemma order_bound : 2 ^ (Z.of_nat n + 2) <= q * q - 1.
Proof using All.
  pose proof (prime_ge2 q q_prime) as Q. assert (N : NoDup (map code (seq 0 (2 ^ (n + 2))))).
  { apply NoDup_map_inj; [apply seq_NoDup|]. intros i j Hi Hj E. apply in_seq in Hi, Hj. destruct (lt_eq_lt_dec i j) as [[L|L]|L]; [exfalso; apply (code_inj i j); [lia|exact E]|exact L|exfalso; apply (code_inj j i); [lia|symmetry; exact E]]. }
  apply (NoDup_incl_length (l' := zrange 1 (q * q))) in N.
  - rewrite map_length, seq_length, zrange_length in N. apply inj_le in N. rewrite Z2Nat.id in N by nia. rewrite Nat2Z.inj_pow, Nat2Z.inj_add in N. exact N.
  - intros x Hx. apply in_map_iff in Hx as (i & <- & _). apply zrange_In. apply code_range.
Qed.
End Suf.

Lemma least_factor m : 1 < m -> ~ prime m -> exists q, prime q /\ (q | m) /\ q * q <= m.
Proof.
  intros Hm NP. destruct (least_prime_divisor m ltac:(lia)) as (q & Hq & D & L). exists q. split; [exact Hq|]. split; [exact D|]. destruct D as (c & E). pose proof (prime_ge2 q Hq).
  assert (1 <= c) by nia. destruct (Z.eq_dec c 1) as [->|N1]; [exfalso; apply NP; rewrite E, Z.mul_1_l; exact Hq|].
  destruct (prime_divisor_exists c) as (r & Hr & Dr); [lia|]. assert (q <= r). { apply L; [exact Hr|]. rewrite E. apply Z.divide_mul_l. exact Dr. }
  apply Z.divide_pos_le in Dr; [|lia]. nia.
Qed.

Lemma mersenne_odd p q : 1 <= p -> (q | 2 ^ p - 1) -> q <> 2.
Proof.
  intros Hp (c & E) ->. replace p with (Z.succ (p - 1)) in E by lia. rewrite Z.pow_succ_r in E by lia. lia.
Qed.

Lemma ll_sound p : 3 <= p -> (2 ^ p - 1 | sq (Z.to_nat (p - 2))) -> prime (2 ^ p - 1).
Proof.
  intros Hp D. destruct (prime_dec (2 ^ p - 1)) as [P|NP]; [exact P|exfalso]. assert (M : 8 <= 2 ^ p) by (change 8 with (2 ^ 3); apply Z.pow_le_mono_r; lia).
  destruct (least_factor (2 ^ p - 1) ltac:(lia) NP) as (q & Hq & Dq & L). pose proof (order_bound q (Z.to_nat (p - 2)) Hq (mersenne_odd p q ltac:(lia) Dq) (Z.divide_trans _ _ _ Dq D)) as B.
  rewrite Z2Nat.id in B by lia. replace (p - 2 + 2) with p in B by lia. lia.
Qed.

(** ** If the Mersenne number is prime the test succeeds *)
Lemma choose_gt : forall n k, (n < k)%nat -> choose n k = 0.
Proof. induction n as [|n IH]; intros [|k] H; cbn [choose]; try lia. rewrite !IH by lia. reflexivity. Qed.
Lemma choose_n n : choose n n = 1.
Proof. induction n as [|n IH]; [reflexivity|]. cbn [choose]. rewrite IH, choose_gt by lia. reflexivity. Qed.
Lemma choose_S n k : choose (S n) (S k) = choose n k + choose n (S k). Proof. reflexivity. Qed.
Lemma choose_absorb : forall n k, Z.of_nat (S k) * choose (S n) (S k) = Z.of_nat (S n) * choose n k.
Proof.
  induction n as [|n IH]; intros k.
  - destruct k as [|k]; [reflexivity|]. cbn [choose]. lia.
  - destruct k as [|k]; [specialize (IH 0%nat); rewrite choose_0 in IH; rewrite choose_S, !choose_0; lia|].
    assert (E : choose (S (S n)) (S (S k)) = choose (S n) (S k) + choose (S n) (S (S k))) by reflexivity. rewrite E. rewrite Z.mul_add_distr_l. rewrite (IH (S k)).
    pose proof (IH k) as I2. assert (E2 : choose (S n) (S k) = choose n k + choose n (S k)) by reflexivity. nia.
Qed.
Lemma prime_choose p k : prime (Z.of_nat p) -> (0 < k < p)%nat -> (Z.of_nat p | choose p k).
Proof.
  intros Hp Hk. destruct p as [|p]; [lia|]. destruct k as [|k]; [lia|]. assert (D : (Z.of_nat (S p) | Z.of_nat (S k) * choose (S p) (S k))) by (rewrite choose_absorb; apply Z.divide_factor_l).
  apply prime_mult in D; [|exact Hp]. destruct D as [D|D]; [|exact D]. apply Z.divide_pos_le in D; lia.
Qed.

(** The binomial theorem, with the powers of the second term given by a sequence f. *)
Section Binom.
Context (a b : Z).
Fixpoint bsum (n : nat) (f : nat -> Z) : Z := match n with O => f 0%nat | S n' => a * bsum n' f + b * bsum n' (fun k => f (S k)) end.

Definition bterm (n : nat) (f : nat -> Z) (k : nat) : Z := choose n k * a ^ (Z.of_nat n - Z.of_nat k) * b ^ Z.of_nat k * f k.
Fixpoint upto (m : nat) (g : nat -> Z) : Z := match m with O => 0 | S m' => upto m' g + g m' end.
Lemma upto_ext m g g' : (forall k, (k < m)%nat -> g k = g' k) -> upto m g = upto m g'.
Proof. induction m as [|m IH]; intros H; [reflexivity|]. cbn [upto]. rewrite IH, H by (intros; try apply H; lia). reflexivity. Qed.
Lemma upto_first m g : upto (S m) g = g 0%nat + upto m (fun k => g (S k)).
Proof. induction m as [|m IH]; [cbn [upto]; ring|]. change (upto (S (S m)) g) with (upto (S m) g + g (S m)). rewrite IH. cbn [upto]. ring. Qed.
Lemma upto_scale c m g : c * upto m g = upto m (fun k => c * g k).
Proof. induction m as [|m IH]; [apply Z.mul_0_r|]. cbn [upto]. rewrite <- IH. ring. Qed.
Lemma upto_plus m g g' : upto m g + upto m g' = upto m (fun k => g k + g' k).
Proof. induction m as [|m IH]; [reflexivity|]. cbn [upto]. rewrite <- IH. ring. Qed.

Lemma bsum_eq n : forall f, bsum n f = upto (S n) (bterm n f).
Proof using.
  induction n as [|n IH]; intros f; [cbn [bsum upto]; unfold bterm; rewrite choose_0, Z.sub_diag; change (Z.of_nat 0) with 0; rewrite !Z.pow_0_r; ring|]. cbn [bsum]. rewrite !IH.
  change (upto (S (S n)) (bterm (S n) f)) with (upto (S n) (bterm (S n) f) + bterm (S n) f (S n)). rewrite upto_first.
  change (upto (S n) (bterm n (fun k => f (S k)))) with (upto n (bterm n (fun k => f (S k))) + bterm n (fun k => f (S k)) n). rewrite upto_first.
  assert (L : b * bterm n (fun k => f (S k)) n = bterm (S n) f (S n)).
  { unfold bterm. rewrite !choose_n, !Z.sub_diag. rewrite Nat2Z.inj_succ, Z.pow_succ_r by lia. ring. }
  assert (F : a * bterm n f 0 = bterm (S n) f 0).
  { unfold bterm. rewrite !choose_0. rewrite !Z.sub_0_r. rewrite Nat2Z.inj_succ, Z.pow_succ_r by lia. ring. }
  assert (R : a * upto n (fun k => bterm n f (S k)) + b * upto n (bterm n (fun k => f (S k))) = upto n (fun k => bterm (S n) f (S k))).
  { rewrite !upto_scale, upto_plus. apply upto_ext. intros k Hk. unfold bterm. assert (E : choose (S n) (S k) = choose n k + choose n (S k)) by reflexivity. rewrite E.
    replace (Z.of_nat (S n) - Z.of_nat (S k)) with (Z.of_nat n - Z.of_nat k) by lia. replace (Z.of_nat n - Z.of_nat k) with (Z.succ (Z.of_nat n - Z.of_nat (S k))) by lia. rewrite Z.pow_succ_r by lia.
    replace (Z.of_nat (S k)) with (Z.succ (Z.of_nat k)) by lia. rewrite (Z.pow_succ_r b) by lia. ring. }
  rewrite !Z.mul_add_distr_l. rewrite L, F. rewrite <- R. ring.
Qed.

Lemma bsum_prime p f : prime (Z.of_nat p) -> cg (Z.of_nat p) (bsum p f) (a ^ Z.of_nat p * f 0%nat + b ^ Z.of_nat p * f p).
Proof using.
  intros Hp. rewrite bsum_eq. pose proof (prime_ge2 _ Hp). change (upto (S p) (bterm p f)) with (upto p (bterm p f) + bterm p f p).
  assert (L : bterm p f p = b ^ Z.of_nat p * f p) by (unfold bterm; rewrite choose_n, Z.sub_diag; ring). rewrite L. apply cg_add; [|reflexivity].
  destruct p as [|p]; [lia|]. rewrite upto_first. assert (F : bterm (S p) f 0 = a ^ Z.of_nat (S p) * f 0%nat) by (unfold bterm; rewrite Z.sub_0_r, choose_0; cbn [Z.of_nat]; ring). rewrite F. rewrite <- (Z.add_0_r (a ^ Z.of_nat (S p) * f 0%nat)) at 2. apply cg_add; [reflexivity|]. apply cg_0.
  assert (G : forall m, (m <= p)%nat -> (Z.of_nat (S p) | upto m (fun k => bterm (S p) f (S k)))); [|apply G; lia].
  induction m as [|m IH]; intros Hm; [apply Z.divide_0_r|]. cbn [upto]. apply Z.divide_add_r; [apply IH; lia|]. unfold bterm. apply Z.divide_mul_l, Z.divide_mul_l, Z.divide_mul_l. apply prime_choose; [exact Hp|lia].
Qed.

Definition rho (k : nat) : Z := if Nat.even k then 3 ^ Z.of_nat (Nat.div2 k) else 0.
Definition iota (k : nat) : Z := if Nat.even k then 0 else 3 ^ Z.of_nat (Nat.div2 k).
Lemma rho_iota k : rho (S (S k)) = 3 * rho k /\ iota (S (S k)) = 3 * iota k.
Proof. unfold rho, iota. cbn [Nat.even Nat.div2]. rewrite Nat2Z.inj_succ, Z.pow_succ_r by lia. destruct (Nat.even k); lia. Qed.
Lemma rho_S k : rho (S k) = 3 * iota k /\ iota (S k) = rho k.
Proof.
  induction k as [|k (A & B)]; [split; reflexivity|]. destruct (rho_iota k) as (C & D). rewrite C, D. rewrite A, B. split; lia.
Qed.

Lemma bsum_ext n : forall f f', (forall k, f k = f' k) -> bsum n f = bsum n f'.
Proof using. induction n as [|n IH]; intros f f' H; [apply H|]. cbn [bsum]. rewrite (IH f f'), (IH (fun k => f (S k)) (fun k => f' (S k))); auto. Qed.
Lemma bsum_scale c n : forall f, bsum n (fun k => c * f k) = c * bsum n f.
Proof using. induction n as [|n IH]; intros f; [reflexivity|]. cbn [bsum]. rewrite IH. rewrite (IH (fun k => f (S k))). ring. Qed.

Lemma pw_bsum n : pw (a, b) n = (bsum n rho, bsum n iota).
Proof using.
  induction n as [|n IH]; [reflexivity|]. cbn [pw bsum]. rewrite IH. rewrite (bsum_ext n (fun k => rho (S k)) (fun k => 3 * iota k)) by (intros k; apply rho_S). rewrite (bsum_ext n (fun k => iota (S k)) rho) by (intros k; apply rho_S).
  rewrite bsum_scale. apply pair_eq; cbn [mul fst snd]; ring.
Qed.
End Binom.

Lemma fermat_cg a p : prime p -> cg p (a ^ p) a.
Proof.
  intros Hp. pose proof (prime_ge2 p Hp). destruct (Zdivide_dec p a) as [D|D].
  - apply cg_0 in D. rewrite D. rewrite Z.pow_0_l by lia. reflexivity.
  - replace p with (Z.succ (p - 1)) at 2 by lia. rewrite Z.pow_succ_r by lia. assert (C : cg p (a ^ (p - 1)) 1) by (constructor; rewrite fermat by assumption; rewrite Z.mod_small by lia; reflexivity). rewrite C, Z.mul_1_r. reflexivity.
Qed.

Section Nec.
Context (p : Z).
Let M := 2 ^ p - 1.
Hypothesis p_ge : 3 <= p.
Hypothesis p_odd : Z.odd p = true.
Hypothesis M_prime : prime M.

Lemma M_mod : M mod 8 = 7 /\ M mod 4 = 3 /\ M mod 3 = 1 /\ 7 <= M.
Proof using p_ge p_odd.
  unfold M. apply Z.odd_spec in p_odd as (c & Ec). assert (E8 : 2 ^ p = 8 * 4 ^ (c - 1)). { change 8 with (2 ^ 3). change 4 with (2 ^ 2). rewrite <- Z.pow_mul_r, <- Z.pow_add_r by lia. f_equal. lia. }
  assert (P4 : 1 <= 4 ^ (c - 1)) by (pose proof (Z.pow_pos_nonneg 4 (c - 1)); lia). assert (C3 : cg 3 (2 ^ p - 1) 1).
  { rewrite E8. assert (C : cg 3 4 1) by (constructor; reflexivity). rewrite C. rewrite Z.pow_1_l by lia. constructor. reflexivity. }
  rewrite E8 in *. set (x := 4 ^ (c - 1)) in *. split; [|split; [|split]].
  - replace (8 * x - 1) with (7 + (x - 1) * 8) by ring. rewrite Z_mod_plus_full. reflexivity.
  - replace (8 * x - 1) with (3 + (2 * x - 1) * 4) by ring. rewrite Z_mod_plus_full. reflexivity.
  - apply cg_eq; [lia|exact C3].
  - lia.
Qed.

Let h := (M - 1) / 2.
Lemma M_h : M = 2 * h + 1 /\ h + 1 = 2 ^ (p - 1).
Proof using p_ge p_odd.
  destruct M_mod as (_ & M4 & _ & _). assert (E : M = 2 * h + 1). { unfold h. pose proof (Z.div_mod M 4 ltac:(lia)) as D. rewrite M4 in D. replace (M - 1) with ((2 * (M / 4) + 1) * 2) by lia. rewrite Z.div_mul by lia. lia. }
  split; [exact E|]. assert (D : 2 ^ p = 2 * 2 ^ (p - 1)) by (rewrite <- Z.pow_succ_r by lia; f_equal; lia). unfold M in E at 1. lia.
Qed.

Lemma three_h : cg M (3 ^ h) (-1).
Proof using All.
  destruct M_mod as (M8 & M4 & M3 & M7). assert (Od : Z.odd M = true) by (destruct M_h as (E & _); rewrite E, Z.odd_add, Z.odd_mul; reflexivity).
  rewrite (euler_criterion M h M_prime (proj1 M_h)). assert (P3 : prime 3) by (apply prime_3).
  rewrite (reciprocity M 3 M_prime P3 Od eq_refl). unfold sgn4. rewrite M4. change (3 mod 4) with 3. cbn [Z.eqb Pos.eqb andb].
  rewrite (legendre_cg M 1 3) by (constructor; rewrite M3; reflexivity). rewrite (legendre_1 3 1 P3 eq_refl). reflexivity.
Qed.
Lemma two_h : cg M (2 ^ h) 1.
Proof using All.
  destruct M_mod as (M8 & M4 & M3 & M7). assert (Od : Z.odd M = true) by (destruct M_h as (E & _); rewrite E, Z.odd_add, Z.odd_mul; reflexivity).
  rewrite (euler_criterion M h M_prime (proj1 M_h)). rewrite (legendre_2 M h M_prime (proj1 M_h)). unfold chi8. rewrite M8. reflexivity.
Qed.

Lemma frob : pc M (pw (6, 2) (Z.to_nat M)) (6, -2).
Proof using All.
  destruct M_mod as (M8 & M4 & M3 & M7). destruct M_h as (E & _). rewrite pw_bsum. assert (Hp : prime (Z.of_nat (Z.to_nat M))) by (rewrite Z2Nat.id by lia; exact M_prime).
  assert (Ev : Nat.even (Z.to_nat M) = false). { rewrite E. replace (Z.to_nat (2 * h + 1)) with (S (2 * Z.to_nat h)) by lia. rewrite Nat.even_succ. rewrite Nat.odd_mul. reflexivity. }
  assert (Dv : Nat.div2 (Z.to_nat M) = Z.to_nat h). { rewrite E. replace (Z.to_nat (2 * h + 1)) with (S (2 * Z.to_nat h)) by lia. apply Nat.div2_succ_double. }
  pose proof (bsum_prime 6 2 _ rho Hp) as R. pose proof (bsum_prime 6 2 _ iota Hp) as J. rewrite Z2Nat.id in R, J by lia. split; cbn [fst snd].
  - rewrite R. rewrite (fermat_cg 6 M M_prime), (fermat_cg 2 M M_prime). unfold rho. rewrite Ev. reflexivity.
  - rewrite J. rewrite (fermat_cg 6 M M_prime), (fermat_cg 2 M M_prime). unfold iota. rewrite Ev, Dv. rewrite Z2Nat.id by lia. rewrite three_h. reflexivity.
Qed.

Lemma pw_scalar c n : pw (c, 0) n = (c ^ Z.of_nat n, 0).
Proof. induction n as [|n IH]; [reflexivity|]. cbn [pw]. rewrite IH. rewrite Nat2Z.inj_succ, Z.pow_succ_r by lia. apply pair_eq; cbn [mul fst snd]; ring. Qed.

Lemma w_half : cg M (fst (pw w (2 ^ S (Z.to_nat (p - 2))))) (-1).
Proof using All.
  destruct M_mod as (M8 & M4 & M3 & M7). destruct M_h as (E & Eh). assert (En : (2 ^ S (Z.to_nat (p - 2)))%nat = Z.to_nat (h + 1)).
  { rewrite Eh. apply Nat2Z.inj. rewrite Nat2Z.inj_pow, Z2Nat.id by (apply Z.pow_nonneg; lia). f_equal. lia. }
  rewrite En. set (k := Z.to_nat (h + 1)). assert (A : pc M (pw (6, 2) (2 * k)) (24, 0)).
  { replace (2 * k)%nat with (S (Z.to_nat M)) by (unfold k; lia). cbn [pw]. rewrite frob. reflexivity. }
  rewrite pw_mul in A. change (pw (6, 2) 2) with (mul (24, 0) w) in A. rewrite pw_prod, pw_scalar in A. destruct A as (A & _). cbn [mul fst snd] in A.
  assert (K : cg M (24 ^ Z.of_nat k) (24 * -1)).
  { unfold k. rewrite Z2Nat.id by lia. rewrite Z.pow_add_r, Z.pow_1_r by lia. rewrite Z.mul_comm. apply cg_mul; [reflexivity|]. change 24 with (2 ^ 3 * 3). rewrite Z.pow_mul_l. rewrite <- Z.pow_mul_r, (Z.mul_comm 3 h), Z.pow_mul_r by lia. rewrite two_h, three_h. reflexivity. }
  rewrite K in A. assert (G : Z.gcd 24 M = 1).
  { apply Zgcd_1_rel_prime. apply rel_prime_sym. apply prime_rel_prime; [exact M_prime|]. intros D. change 24 with (2 * (2 * (2 * 3))) in D. apply prime_mult in D; [|exact M_prime]. destruct D as [D|D]; [apply Z.divide_pos_le in D; lia|]. apply prime_mult in D; [|exact M_prime]. destruct D as [D|D]; [apply Z.divide_pos_le in D; lia|]. apply Z.divide_pos_le in D; lia. }
  apply (cg_cancel M 24 _ _ G). assert (A' : cg M (- (24 * fst (pw w k))) 24). { rewrite <- A at 2. match goal with |- cg _ ?x ?y => replace y with x by ring end. reflexivity. }
  replace (24 * fst (pw w k)) with (- - (24 * fst (pw w k))) by ring. rewrite A'. reflexivity.
Qed.

Lemma ll_complete : (M | sq (Z.to_nat (p - 2))).
Proof using All.
  pose proof w_half as A. rewrite w_double in A. cbn [fst] in A. destruct M_mod as (_ & _ & _ & M7). rewrite sq_w. set (x := fst (pw w (2 ^ Z.to_nat (p - 2)))) in *.
  apply cg_div in A. replace (2 * (x * x) - 1 - -1) with (2 * x * x) in A by ring. apply prime_mult in A; [|exact M_prime]. destruct A as [A|A]; [exact A|]. apply Z.divide_mul_r. exact A.
Qed.
End Nec.

(** ** The function *)
Lemma even_composite p : 3 <= p -> Z.odd p = false -> ~ prime (2 ^ p - 1).
Proof.
  intros Hp Hv P. assert (E : exists c, p = 2 * c) by (apply Z.even_spec; rewrite <- Z.negb_odd, Hv; reflexivity). destruct E as (c & ->). assert (D : (3 | 2 ^ (2 * c) - 1)).
  { apply cg_div. rewrite Z.pow_mul_r by lia. change (2 ^ 2) with 4. assert (C : cg 3 4 1) by (constructor; reflexivity). rewrite C. rewrite Z.pow_1_l by lia. reflexivity. }
  assert (M : 2 ^ 3 <= 2 ^ (2 * c)) by (apply Z.pow_le_mono_r; lia). change (2 ^ 3) with 8 in M. apply (prime_divisors _ P) in D. lia.
Qed.

Lemma ll_fold mp m : 0 < mp -> forall v, (1 <= m)%nat -> forall a b, b - a = Z.of_nat m -> cg mp v (sq 0) ->
  foldM (fun v _ => pymod (v * v - 2) mp) (zrange a b) v = Ret (sq m mod mp).
Proof.
  intros Hm v L a b E C. assert (G : forall k, (1 <= k <= m)%nat -> foldM (fun v _ => pymod (v * v - 2) mp) (zrange a (a + Z.of_nat k)) v = Ret (sq k mod mp)); [|replace b with (a + Z.of_nat m) by lia; apply G; lia].
  induction k as [|k IH]; intros Hk; [lia|]. replace (a + Z.of_nat (S k)) with (a + Z.of_nat k + 1) by lia. rewrite zrange_snoc by lia. rewrite foldM_app. destruct k as [|k].
  - rewrite zrange_nil by lia. cbn [foldM bind]. unfold pymod. destruct (Z.eqb_spec mp 0); [lia|]. cbn [bind]. f_equal. cbn [sq]. assert (K : cg mp (v * v - 2) (4 * 4 - 2)) by (rewrite C; reflexivity). destruct K as (K). exact K.
  - rewrite IH by lia. cbn [foldM bind]. unfold pymod. destruct (Z.eqb_spec mp 0); [lia|]. cbn [bind]. f_equal. assert (K : cg mp (sq (S k) mod mp * (sq (S k) mod mp) - 2) (sq (S (S k)))) by (rewrite cg_mod; reflexivity). destruct K as (K). exact K.
Qed.

Lemma ll_ok p : 3 <= p -> exists b, lucas_lehmer p = Ret b /\ (b = true <-> prime (2 ^ p - 1)).
Proof.
  intros Hp. assert (M : 2 ^ 3 <= 2 ^ p) by (apply Z.pow_le_mono_r; lia). change (2 ^ 3) with 8 in M. unfold lucas_lehmer. cbv zeta. rewrite (ll_fold (2 ^ p - 1) (Z.to_nat (p - 2)) ltac:(lia) 4 ltac:(lia) 1 (p - 1) ltac:(lia) (reflexivity 4)). cbn [bind].
  eexists. split; [reflexivity|]. rewrite Z.eqb_eq. rewrite Z.mod_divide by lia. split; [apply ll_sound; exact Hp|]. intros P. destruct (Z.odd p) eqn:O; [apply ll_complete; assumption|]. exfalso. exact (even_composite p Hp O P).
Qed.
