(** * Lehmer's method: when it is right and when it is wrong *)
From Coq Require Import ZArith List Lia Bool Znumtheory Sorted.
From Verif Require Import Base Py Sums Lists Primes_Spec PrimeList_Data PrimeList_Proofs Core_Model Core_Spec Core_Props Sieves_Model Primes_Props PC_Model PC_Spec PC_Proofs PC_Proofs2 PC_Proofs3 PC_Proofs5 PC_Proofs6 PC_Proofs7 PC_Proofs8 PC_Proofs9.
Import ListNotations.
Open Scope Z_scope.

Definition terms_of (n r4 r2 : Z) (ps : list Z) : Z -> Z := fun i => V ps (n / rd ps i) (pi r2) + pi r2 - 1 - pi (n / rd ps i).
Lemma lehmer_main fsqrt n : 999983 < n -> sqrt_exact n fsqrt -> exists root r4 r2 r3 ps,
  (0 <= root /\ p4 root <= n * n * n < p4 (root + 1)) /\ (0 <= r4 /\ p4 r4 <= n < p4 (r4 + 1)) /\ (Z.sqrt n <= r2 <= Z.sqrt n + 1) /\ n < (r2 + 1) * (r2 + 1) /\
  (0 <= r3 /\ r3 * r3 * r3 <= n < (r3 + 1) * (r3 + 1) * (r3 + 1)) /\ primes_upto root ps /\ lehmer fsqrt n = Ret (pi n - Sum (pi r4) (pi r2) (terms_of n r4 r2 ps)).
Proof.
  intros Hn Fl. unfold lehmer. destruct (Z.leb_spec n 1); [lia|]. rewrite PRIME_LIST_last. destruct (Z.leb_spec n 999983); [lia|].
  assert (E4 : forall z, z ^ 4 = p4 z) by (intros; unfold p4; ring). assert (E3 : forall z, z ^ 3 = z * z * z) by (intros; ring). assert (N3 : 0 <= n ^ 3) by (apply Z.pow_nonneg; lia).
  destruct (C04_integer_nth_root 4 (n ^ 3) ltac:(lia) ltac:(lia) N3) as (root & -> & Hr0 & Hr). cbn [bind]. rewrite !E4, E3 in Hr. pose proof (conj Hr0 Hr) as Hroot.
  destruct (C14_primes root) as (ps & -> & HP). cbn [bind].
  destruct (C04_integer_nth_root 4 n ltac:(lia) ltac:(lia) ltac:(lia)) as (r4 & -> & H40 & H4). cbn [bind]. rewrite !E4 in H4. pose proof (conj H40 H4) as Hr4.
  destruct (near_sqrt n ltac:(lia)) as (r2 & -> & R2 & R2'). cbn [bind].
  destruct (C04_integer_nth_root 3 n ltac:(lia) ltac:(lia) ltac:(lia)) as (r3 & -> & H30 & H3). cbn [bind]. rewrite !E3 in H3. pose proof (conj H30 H3) as Hr3.
  exists root, r4, r2, r3, ps. do 6 (split; [assumption|]).
  pose proof (big1 n root r4 r2 Hn Hroot Hr4 R2) as (B1 & B2 & B3). pose proof (r4_r3 n r4 r3 Hn Hr4 Hr3). pose proof (r3_r2 n r2 r3 Hn R2 Hr3).
  rewrite !(pi_bisect root ps HP) by lia. cbv zeta.
  destruct (run_ok n root r4 r2 r3 fsqrt ps Hn Hroot Hr4 R2 R2' Hr3 Fl HP) as (ch & v & s1 & ch1 & s2 & ch2 & X0 & X1 & X2 & X3).
  cbv zeta in X0, X1, X2, X3. rewrite X0. cbn [bind]. rewrite X1. cbn [bind]. rewrite X2. cbn [bind]. rewrite X3. reflexivity.
Qed.

Lemma lehmer_small fsqrt n : n <= 999983 -> exists k, lehmer fsqrt n = Ret k /\ prime_count_is n k.
Proof.
  intros H. unfold lehmer. destruct (Z.leb_spec n 1) as [L1|L1]; [exists 0; split; [reflexivity|apply no_primes, L1]|].
  rewrite PRIME_LIST_last. destruct (Z.leb_spec n 999983) as [L2|L2]; [|lia]. eexists; split; [reflexivity|]. apply table_pi. rewrite PRIME_LIST_last. exact L2.
Qed.

Section cases.
  Context (fsqrt : Z -> Z) (n : Z).
  Hypothesis (Fl : sqrt_exact n fsqrt).
  Lemma to4 z : z ^ 4 = p4 z. Proof. unfold p4. ring. Qed.
  Lemma to3 z : z ^ 3 = z * z * z. Proof. ring. Qed.
  Lemma le_root root p : 0 <= root -> p4 root <= n * n * n < p4 (root + 1) -> 0 <= p -> (p4 p <= n * n * n <-> p <= root).
  Proof using. intros H0 H Hp. split; intros L; [|pose proof (p4_mono p root ltac:(lia)); lia]. assert (p < root + 1); [|lia]. apply p4_lt; lia. Qed.

  Lemma lehmer_right : (n <= 999983 \/ forall q, prime q -> n < q ^ 4 -> exists p, prime p /\ n / q < p /\ p ^ 4 <= n ^ 3) -> exists k, lehmer fsqrt n = Ret k /\ prime_count_is n k.
  Proof using Fl.
    intros [Hs|G]; [apply lehmer_small, Hs|]. destruct (Z_le_gt_dec n 999983) as [Hs|Hn]; [apply lehmer_small, Hs|]. apply Z.gt_lt in Hn.
    destruct (lehmer_main fsqrt n Hn Fl) as (root & r4 & r2 & r3 & ps & Hroot & Hr4 & R2 & R2' & Hr3 & HP & ->). eexists. split; [reflexivity|]. rewrite Sum_zero; [rewrite Z.sub_0_r; apply pi_is|].
    intros i Hi. destruct (pj n root r4 r2 r3 ps Hn Hroot Hr4 R2 Hr3 HP i Hi) as (J1 & J2 & J3). unfold terms_of. pose proof (ps_prime root ps HP i J1) as P. pose proof (div_le (rd ps i) n ltac:(lia) ltac:(lia)) as DL.
    rewrite (exact_term n root r4 r2 r3 ps Hn Hroot Hr4 R2 Hr3 HP); [lia|lia|]. destruct (G (rd ps i) P) as (p & Pp & L1 & L2). { rewrite to4. pose proof (p4_mono (r4 + 1) (rd ps i) ltac:(lia)). lia. }
    apply Z.lt_le_trans with p; [exact L1|]. apply (lp_max n root ps Hn Hroot HP); [exact Pp|]. rewrite to4, to3 in L2. apply prime_ge_2 in Pp. apply (le_root root p); try lia.
  Qed.
  Lemma lehmer_wrong q : 999983 < n -> prime q -> n < q ^ 4 -> (forall p, prime p -> n / q < p -> p ^ 4 <= n ^ 3 -> False) -> exists k m, lehmer fsqrt n = Ret k /\ prime_count_is n m /\ k < m.
  Proof using Fl.
    intros Hn Pq Lq G. destruct (lehmer_main fsqrt n Hn Fl) as (root & r4 & r2 & r3 & ps & Hroot & Hr4 & R2 & R2' & Hr3 & HP & ->). eexists. exists (pi n). split; [reflexivity|]. split; [apply pi_is|].
    pose proof (big1 n root r4 r2 Hn Hroot Hr4 R2) as (B1 & B2 & B3). pose proof (prime_ge_2 q Pq) as Q2. rewrite to4 in Lq.
    assert (LP : prime (last ps 0)). { rewrite (lp_rd n root ps Hn Hroot HP). apply (ps_prime root ps HP). pose proof (some n root ps Hn Hroot HP). lia. }
    assert (LN : last ps 0 <= n / q). { destruct (Z_le_gt_dec (last ps 0) (n / q)) as [|L]; [assumption|exfalso]. apply (G (last ps 0) LP); [lia|]. rewrite to4, to3. apply (le_root root); [lia|apply Hroot|apply prime_ge_2 in LP; lia|apply (lp_le n root ps Hn Hroot HP)]. }
    assert (R4q : r4 < q) by (destruct Hr4 as (A & B & C); apply p4_lt; lia). pose proof (quot_root n root r4 Hn Hroot Hr4 q R4q) as QR.
    pose proof (lp_big n root r2 ps Hn Hroot R2 HP) as LB. assert (Qr : q <= r2). { destruct (Z_le_gt_dec q r2) as [|L]; [assumption|exfalso]. assert (n / q < r2 + 1); [|lia]. apply Z.div_lt_upper_bound; [lia|]. pose proof (Z.mul_le_mono_nonneg_r (r2 + 1) q (r2 + 1) ltac:(lia) ltac:(lia)). lia. }
    assert (I : In q ps) by (apply HP; split; [exact Pq|lia]). apply In_rd in I as (i & Hi & Eq). pose proof (r4_r3 n r4 r3 Hn Hr4 Hr3). pose proof (r3_r2 n r2 r3 Hn R2 Hr3).
    assert (I2 : pi r4 <= i < pi r2). { split; [|apply (pi_rd root ps HP); lia]. destruct (Z_le_gt_dec (pi r4) i) as [|L]; [assumption|]. assert (rd ps i <= r4) by (apply (pi_rd root ps HP); lia). lia. }
    assert (0 < Sum (pi r4) (pi r2) (terms_of n r4 r2 ps)); [|lia]. apply (Sum_pos _ _ _ i I2).
    - intros j Hj. unfold terms_of. destruct (pj n root r4 r2 r3 ps Hn Hroot Hr4 R2 Hr3 HP j Hj) as (J1 & J2 & J3). pose proof (quot_root n root r4 Hn Hroot Hr4 (rd ps j) J2) as QJ. pose proof (div_le (rd ps j) n ltac:(lia) ltac:(lia)) as DL. destruct (Z_lt_le_dec (n / rd ps j) (last ps 0)) as [L|L].
      + rewrite (exact_term n root r4 r2 r3 ps Hn Hroot Hr4 R2 Hr3 HP) by lia. lia.
      + pose proof (excess n root r4 r2 r3 fsqrt ps Hn Hroot Hr4 R2 R2' Hr3 Fl HP (n / rd ps j) ltac:(lia)). lia.
    - unfold terms_of. rewrite Eq. pose proof (excess n root r4 r2 r3 fsqrt ps Hn Hroot Hr4 R2 R2' Hr3 Fl HP (n / q) ltac:(lia)). lia.
  Qed.
End cases.

(** In particular just below every fourth power of a prime. *)
Lemma lehmer_wrong_p4 fsqrt p : prime p -> 37 <= p -> sqrt_exact (p ^ 4 - 1) fsqrt -> exists k m, lehmer fsqrt (p ^ 4 - 1) = Ret k /\ prime_count_is (p ^ 4 - 1) m /\ k < m.
Proof.
  intros P L Fl. pose proof (p4_mono 37 p ltac:(lia)) as M. change (p4 37) with 1874161 in M. rewrite to4 in *. apply (lehmer_wrong fsqrt (p4 p - 1) Fl p); [lia|exact P|rewrite to4; lia|].
  intros x Px L1 L2. assert (E : (p4 p - 1) / p = p * p * p - 1). { symmetry. apply Z.div_unique with (p - 1); [lia|]. unfold p4. ring. } rewrite E in L1. rewrite to4 in L2.
  assert (X : p * p * p <= x) by lia. assert (p4 (p * p * p) <= p4 x) by (apply p4_mono; nia). replace (p4 (p * p * p)) with (p4 p ^ 3) in H by (unfold p4; ring). assert ((p4 p - 1) ^ 3 < p4 p ^ 3) by (apply Z.pow_lt_mono_l; lia). lia.
Qed.
