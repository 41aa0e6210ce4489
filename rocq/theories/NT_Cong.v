(** * Congruence modulo n as a setoid; multiplicative orders *)
From Coq Require Import ZArith List Lia Znumtheory Bool Setoid Morphisms.
From Verif Require Import Base NT NT_Euler Arith_Spec Arith_Proofs.
Import ListNotations.
Open Scope Z_scope.

Inductive cg (n a b : Z) : Prop := Cg (e : a mod n = b mod n).
Lemma cg_iff n a b : cg n a b <-> a mod n = b mod n.
Proof. split; [intros (E); exact E|intros E; constructor; exact E]. Qed.
Global Instance cg_equiv n : Equivalence (cg n).
Proof. split; [intros a|intros a b|intros a b c]; rewrite !cg_iff; congruence. Qed.
Global Instance cg_add n : Proper (cg n ==> cg n ==> cg n) Z.add.
Proof. intros a b (E) c d (F). constructor. rewrite Zplus_mod, E, F, <- Zplus_mod. reflexivity. Qed.
Global Instance cg_mul n : Proper (cg n ==> cg n ==> cg n) Z.mul.
Proof. intros a b (E) c d (F). constructor. rewrite Zmult_mod, E, F, <- Zmult_mod. reflexivity. Qed.
Global Instance cg_sub n : Proper (cg n ==> cg n ==> cg n) Z.sub.
Proof. intros a b (E) c d (F). constructor. rewrite Zminus_mod, E, F, <- Zminus_mod. reflexivity. Qed.
Global Instance cg_opp n : Proper (cg n ==> cg n) Z.opp.
Proof. intros a b E. rewrite <- (Z.sub_0_l a), <- (Z.sub_0_l b). rewrite E. reflexivity. Qed.
Global Instance cg_pow n : Proper (cg n ==> eq ==> cg n) Z.pow.
Proof.
  intros a b E k k' <-. destruct (Z_lt_le_dec k 0) as [H|H]; [rewrite !Z.pow_neg_r by exact H; reflexivity|].
  pattern k. apply natlike_ind; [reflexivity| |exact H]. intros j Hj IH. rewrite !Z.pow_succ_r by exact Hj. apply cg_mul; assumption.
Qed.

Lemma cg_refl n a : cg n a a. Proof. reflexivity. Qed.
Lemma cg_mod n a : cg n (a mod n) a. Proof. constructor. apply Zmod_mod. Qed.
Lemma cg_div n a b : cg n a b <-> (n | a - b).
Proof.
  destruct (Z.eq_dec n 0) as [->|Hn].
  - rewrite cg_iff, !Zmod_0_r. split; [intros ->; rewrite Z.sub_diag; apply Z.divide_0_r|]. intros (c & E). lia.
  - rewrite cg_iff. split; [intros E; apply Z.mod_divide; [exact Hn|]; rewrite Zminus_mod, E, Z.sub_diag; apply Z.mod_0_l; exact Hn|].
    intros (c & E). replace a with (b + c * n) by lia. apply Z_mod_plus_full.
Qed.
Lemma cg_0 n a : cg n a 0 <-> (n | a).
Proof. rewrite cg_div, Z.sub_0_r. reflexivity. Qed.
Lemma cg_small n a b : cg n a b -> 0 <= a < n -> 0 <= b < n -> a = b.
Proof. intros (E) Ha Hb. rewrite !Z.mod_small in E by assumption. exact E. Qed.
Lemma cg_eq n a b : 0 <= b < n -> cg n a b -> a mod n = b.
Proof. intros Hb (E). rewrite E. apply Z.mod_small. exact Hb. Qed.
Lemma cg_weaken n m a b : (m | n) -> cg n a b -> cg m a b.
Proof. rewrite !cg_div. intros H D. apply (Z.divide_trans _ n); assumption. Qed.
Lemma cg_cancel n a x y : Z.gcd a n = 1 -> cg n (a * x) (a * y) -> cg n x y.
Proof. intros G. rewrite !cg_div. rewrite <- Z.mul_sub_distr_l. intros D. apply (Z.gauss _ a); [exact D|]. rewrite Z.gcd_comm. exact G. Qed.
Lemma cg_gcd n a b : cg n a b -> Z.gcd a n = Z.gcd b n.
Proof.
  rewrite cg_div. intros (c & E). replace a with (b + c * n) by lia. rewrite Z.gcd_comm, Z.gcd_add_mult_diag_r. apply Z.gcd_comm.
Qed.
Lemma cg_crt n m a b : Z.gcd n m = 1 -> cg n a b -> cg m a b -> cg (n * m) a b.
Proof.
  rewrite !cg_div. intros G (c & E) D. rewrite E in *. rewrite (Z.mul_comm c). apply Z.mul_divide_mono_l. apply (Z.gauss _ n); [rewrite Z.mul_comm; exact D|]. rewrite Z.gcd_comm. exact G.
Qed.
Lemma cg_pow_1 n a k : 0 <= k -> cg n a 1 -> cg n (a ^ k) 1.
Proof. intros Hk E. rewrite E. rewrite Z.pow_1_l by exact Hk. reflexivity. Qed.
Lemma cg_unit n a k : 0 < k -> cg n (a ^ k) 1 -> Z.gcd a n = 1.
Proof.
  intros Hk E. apply cg_gcd in E. rewrite Z.gcd_1_l in E. apply Zgcd_1_rel_prime in E. apply Zgcd_1_rel_prime.
  replace k with (Z.succ (k - 1)) in E by lia. rewrite Z.pow_succ_r in E by lia. apply (rel_prime_div _ n a) in E; [exact E|]. apply Z.divide_factor_l.
Qed.

(** a has order d modulo n. *)
Definition is_order (n a d : Z) : Prop := 0 < d /\ cg n (a ^ d) 1 /\ forall k, 0 < k < d -> ~ cg n (a ^ k) 1.

Lemma euler_totient n a : 0 < n -> Z.gcd a n = 1 -> cg n (a ^ totient n) 1.
Proof. intros Hn G. rewrite totient_units by exact Hn. constructor. apply euler; assumption. Qed.
Lemma totient_pos n : 0 < n -> 0 < totient n.
Proof.
  intros Hn. unfold totient. assert (H : In 1 (filter (fun k => Z.gcd k n =? 1) (zrange 1 (n + 1)))).
  { apply filter_In. split; [apply zrange_In; lia|]. rewrite Z.gcd_1_l. reflexivity. }
  destruct (filter _ _); [contradiction|]. cbn [length]. lia.
Qed.

Lemma least_pos (P : Z -> Prop) (dec : forall k, {P k} + {~ P k}) m : 0 < m -> P m -> exists d, 0 < d <= m /\ P d /\ forall k, 0 < k < d -> ~ P k.
Proof.
  intros Hm HP. assert (G : forall t, (t <= Z.to_nat m)%nat -> (exists d, 0 < d <= Z.of_nat t /\ P d /\ forall k, 0 < k < d -> ~ P k) \/ forall k, 0 < k <= Z.of_nat t -> ~ P k).
  { induction t as [|t IH]; intros Ht; [right; intros k Hk; lia|]. destruct (IH ltac:(lia)) as [(d & Hd & Pd & L)|N]; [left; exists d; split; [lia|auto]|].
    destruct (dec (Z.of_nat (S t))) as [Y|Y]; [left; exists (Z.of_nat (S t)); split; [lia|]; split; [exact Y|]; intros k Hk; apply N; lia|].
    right. intros k Hk. destruct (Z.eq_dec k (Z.of_nat (S t))) as [->|]; [exact Y|apply N; lia]. }
  destruct (G (Z.to_nat m) (le_n _)) as [(d & Hd & H)|N]; [exists d; split; [lia|exact H]|]. exfalso. apply (N m); [lia|exact HP].
Qed.

Lemma cg_dec n a b : {cg n a b} + {~ cg n a b}.
Proof. destruct (Z.eq_dec (a mod n) (b mod n)) as [E|E]; [left; constructor; exact E|right; intros (F); contradiction]. Qed.

Lemma order_exists n a : 0 < n -> Z.gcd a n = 1 -> exists d, is_order n a d /\ d <= totient n.
Proof.
  intros Hn G. destruct (least_pos (fun k => cg n (a ^ k) 1) (fun k => cg_dec n (a ^ k) 1) (totient n) (totient_pos n Hn) (euler_totient n a Hn G)) as (d & Hd & H).
  exists d. split; [split; [lia|exact H]|lia].
Qed.

Lemma order_unit n a d : is_order n a d -> Z.gcd a n = 1.
Proof. intros (Hd & H & _). apply (cg_unit n a d); assumption. Qed.

Lemma order_divide n a d k : is_order n a d -> 0 <= k -> (cg n (a ^ k) 1 <-> (d | k)).
Proof.
  intros (Hd & H1 & HL) Hk. pose proof (Z.mod_pos_bound k d Hd) as B. pose proof (Z.div_mod k d ltac:(lia)) as E. pose proof (Z.div_pos k d Hk Hd) as Q.
  assert (P : cg n (a ^ k) (a ^ (k mod d))).
  { rewrite E at 1. rewrite Z.pow_add_r, Z.pow_mul_r by lia. rewrite H1. rewrite Z.pow_1_l by lia. rewrite Z.mul_1_l. reflexivity. }
  split.
  - intros K. rewrite P in K. destruct (Z.eq_dec (k mod d) 0) as [Z0|Z0]; [apply Z.mod_divide; [lia|exact Z0]|]. exfalso. apply (HL (k mod d)); [lia|exact K].
  - intros D. apply Z.mod_divide in D; [|lia]. rewrite P, D. rewrite Z.pow_0_r. reflexivity.
Qed.

Lemma order_unique n a d d' : is_order n a d -> is_order n a d' -> d = d'.
Proof.
  intros H H'. destruct H as (Hd & H1 & HL) eqn:E1. destruct H' as (Hd' & H1' & HL') eqn:E2. destruct (Z.lt_trichotomy d d') as [L|[L|L]]; [|exact L|].
  - exfalso. apply (HL' d); [lia|exact H1].
  - exfalso. apply (HL d'); [lia|exact H1'].
Qed.

Lemma order_intro n a d : 0 < d -> cg n (a ^ d) 1 -> (forall q, prime q -> (q | d) -> ~ cg n (a ^ (d / q)) 1) -> 0 < n -> is_order n a d.
Proof.
  intros Hd H Hq Hn. pose proof (cg_unit n a d Hd H) as G. destruct (order_exists n a Hn G) as (e & He & _). pose proof (order_divide n a e d He ltac:(lia)) as D. apply proj1 in D. specialize (D H). destruct D as (c & Ec).
  assert (e0 : 0 < e) by (destruct He; assumption). assert (c0 : 0 < c) by nia. destruct (Z.eq_dec c 1) as [->|Hc]; [rewrite Z.mul_1_l in Ec; subst; exact He|]. exfalso.
  destruct (prime_divisor_exists c ltac:(lia)) as (q & Pq & (c' & Eq)). pose proof (prime_ge2 q Pq). apply (Hq q Pq); [exists (c' * e); rewrite Ec, Eq; ring|].
  replace (d / q) with (e * c'); [|rewrite Ec, Eq; replace (c' * q * e) with (e * c' * q) by ring; rewrite Z.div_mul by lia; reflexivity].
  assert (0 <= c') by nia. apply (order_divide n a e); [exact He|nia|]. apply Z.divide_factor_l.
Qed.

Lemma order_pow n a d k : is_order n a (d * k) -> 0 < k -> 0 < d -> is_order n (a ^ k) d.
Proof.
  intros (H0 & H1 & HL) Hk Hd. split; [exact Hd|]. split; [rewrite <- Z.pow_mul_r by lia; rewrite Z.mul_comm; exact H1|]. intros j Hj. rewrite <- Z.pow_mul_r by lia. apply HL. nia.
Qed.

Lemma order_cg n a b d : cg n a b -> is_order n a d -> is_order n b d.
Proof. intros E (H0 & H1 & HL). split; [exact H0|]. split; [rewrite <- E; exact H1|]. intros k Hk. rewrite <- E. apply HL. exact Hk. Qed.

(** Coprime orders. *)
Lemma order_mul n a b d e : 0 < n -> is_order n a d -> is_order n b e -> Z.gcd d e = 1 -> is_order n (a * b) (d * e).
Proof.
  intros Hn Ha Hb G. assert (d0 : 0 < d) by (destruct Ha; assumption). assert (e0 : 0 < e) by (destruct Hb; assumption).
  split; [nia|]. split.
  - rewrite Z.pow_mul_l. assert (A1 : cg n (a ^ (d * e)) 1) by (apply (order_divide n a d); [exact Ha|nia|apply Z.divide_factor_l]). assert (B1 : cg n (b ^ (d * e)) 1) by (apply (order_divide n b e); [exact Hb|nia|apply Z.divide_factor_r]). rewrite A1, B1. reflexivity.
  - intros k Hk E.
    assert (De : (e | k)).
    { assert (X : cg n (b ^ (k * d)) 1).
      { assert (Y : cg n ((a * b) ^ (k * d)) 1) by (rewrite Z.pow_mul_r by lia; apply cg_pow_1; [lia|exact E]). rewrite Z.pow_mul_l in Y. assert (A1 : cg n (a ^ (k * d)) 1) by (apply (order_divide n a d); [exact Ha|nia|apply Z.divide_factor_r]). rewrite A1, Z.mul_1_l in Y. exact Y. }
      apply (order_divide n b e) in X; [|exact Hb|nia]. apply (Z.gauss _ d); [rewrite Z.mul_comm; exact X|rewrite Z.gcd_comm; exact G]. }
    assert (Dd : (d | k)).
    { assert (X : cg n (a ^ (k * e)) 1).
      { assert (Y : cg n ((a * b) ^ (k * e)) 1) by (rewrite Z.pow_mul_r by lia; apply cg_pow_1; [lia|exact E]). rewrite Z.pow_mul_l in Y. assert (B1 : cg n (b ^ (k * e)) 1) by (apply (order_divide n b e); [exact Hb|nia|apply Z.divide_factor_r]). rewrite B1, Z.mul_1_r in Y. exact Y. }
      apply (order_divide n a d) in X; [|exact Ha|nia]. apply (Z.gauss _ e); [rewrite Z.mul_comm; exact X|exact G]. }
    assert (D : (d * e | k)). { destruct Dd as (c & Ec). rewrite Ec, (Z.mul_comm c). apply Z.mul_divide_mono_l. apply (Z.gauss _ d); [rewrite Z.mul_comm, <- Ec; exact De|rewrite Z.gcd_comm; exact G]. }
    apply Z.divide_pos_le in D; lia.
Qed.
