(** * Facts about primes used throughout *)
From Coq Require Import ZArith List Lia Znumtheory Bool Wf_Z.
From Verif Require Import Base.
Import ListNotations.
Open Scope Z_scope.

Lemma prime_ge2 p : prime p -> 2 <= p.
Proof. intros [H _]. lia. Qed.

Lemma prime_divisors_cases p d : prime p -> (d | p) -> 0 <= d -> d = 1 \/ d = p.
Proof. intros Hp Hd H0. pose proof (prime_ge2 p Hp). destruct (prime_divisors p Hp d Hd) as [?|[?|[?|?]]]; lia. Qed.

(** Every [n >= 2] has a prime divisor. *)
Lemma prime_divisor_exists n : 2 <= n -> exists p, prime p /\ (p | n).
Proof.
  intros Hn. assert (H0 : 0 <= n) by lia. revert n H0 Hn.
  apply (Z_lt_induction (fun n => 2 <= n -> exists p, prime p /\ (p | n))).
  intros n IH Hn. destruct (prime_dec n) as [Hp|Hp].
  - exists n. split; [exact Hp|apply Z.divide_refl].
  - destruct (not_prime_divide n ltac:(lia) Hp) as (d & Hd & D).
    destruct (IH d ltac:(lia) ltac:(lia)) as (p & P1 & P2). exists p. split; [exact P1|].
    eapply Z.divide_trans; eauto.
Qed.

(** ... and a least one. *)
Lemma least_prime_divisor n : 2 <= n ->
  exists p, prime p /\ (p | n) /\ forall q, prime q -> (q | n) -> p <= q.
Proof.
  intros Hn.
  assert (G : forall k, 0 <= k -> (exists p, prime p /\ (p | n) /\ (forall q, prime q -> (q | n) -> p <= q)) \/
     (forall q, prime q -> (q | n) -> k < q)).
  { intros k Hk. pattern k. apply natlike_ind; [| |exact Hk].
    - right. intros q Hq _. pose proof (prime_ge2 q Hq). lia.
    - intros j Hj [H|H]; [left; exact H|].
      destruct (prime_dec (Z.succ j)) as [Hp|Hp].
      + destruct (Zdivide_dec (Z.succ j) n) as [D|D].
        * left. exists (Z.succ j). split; [exact Hp|split; [exact D|]].
          intros q Hq Dq. specialize (H q Hq Dq). lia.
        * right. intros q Hq Dq. specialize (H q Hq Dq).
          assert (q <> Z.succ j) by congruence. lia.
      + right. intros q Hq Dq. specialize (H q Hq Dq).
        assert (q <> Z.succ j) by congruence. lia. }
  destruct (G n ltac:(lia)) as [H|H]; [exact H|].
  destruct (prime_divisor_exists n Hn) as (p & Hp & D). specialize (H p Hp D).
  apply Z.divide_pos_le in D; lia.
Qed.

(** The square-root criterion. *)
Lemma prime_sqrt n : 2 <= n ->
  (prime n <-> forall q, prime q -> q * q <= n -> ~ (q | n)).
Proof.
  intros Hn. split.
  - intros Hp q Hq Hqq D. pose proof (prime_ge2 q Hq).
    destruct (prime_divisors_cases n q Hp D) as [->| ->]; try lia. nia.
  - intros H. destruct (least_prime_divisor n Hn) as (p & Hp & D & L).
    pose proof (prime_ge2 p Hp).
    destruct (Z_le_gt_dec (p * p) n) as [Hle|Hgt]; [exfalso; eapply H; eauto|].
    destruct D as [k Hk].
    destruct (Z.eq_dec k 1) as [->|Hk1]; [rewrite Hk, Z.mul_1_l; exact Hp|].
    assert (2 <= k) by nia.
    destruct (prime_divisor_exists k ltac:(lia)) as (q & Hq & Dq).
    assert (p <= q). { apply L; [exact Hq|]. rewrite Hk. apply Z.divide_mul_l. exact Dq. }
    apply Z.divide_pos_le in Dq; [|lia]. nia.
Qed.

Lemma prime_not_prime_mul a b : 2 <= a -> 2 <= b -> ~ prime (a * b).
Proof.
  intros Ha Hb Hp. destruct (prime_divisors_cases (a * b) a Hp) as [?|?]; try lia.
  - apply Z.divide_factor_l.
  - nia.
Qed.

Lemma prime_even p : prime p -> (2 | p) -> p = 2.
Proof. intros Hp D. destruct (prime_divisors_cases p 2 Hp D) as [?|?]; lia. Qed.

(** A composite number is [p * m] with [p] its least prime factor, [p <= m]. *)
Lemma composite_split n : 2 <= n -> ~ prime n ->
  exists p m, prime p /\ n = p * m /\ p <= m /\ p * p <= n /\
    forall q, prime q -> (q | n) -> p <= q.
Proof.
  intros Hn Hc. destruct (least_prime_divisor n Hn) as (p & Hp & [m Hm] & L).
  pose proof (prime_ge2 p Hp).
  assert (m <> 1) by (intros ->; apply Hc; rewrite Hm, Z.mul_1_l; exact Hp).
  assert (2 <= m) by nia.
  destruct (prime_divisor_exists m ltac:(lia)) as (q & Hq & Dq).
  assert (p <= q). { apply L; [exact Hq|]. rewrite Hm. apply Z.divide_mul_l. exact Dq. }
  apply Z.divide_pos_le in Dq; [|lia].
  exists p, m. split; [exact Hp|]. split; [lia|]. split; [lia|]. split; [nia|exact L].
Qed.

Lemma prime_coprime p q : prime p -> prime q -> p <> q -> Z.gcd p q = 1.
Proof.
  intros Hp Hq Hne. apply Zgcd_1_rel_prime. apply prime_rel_prime; [exact Hp|].
  intros D. pose proof (prime_ge2 p Hp). destruct (prime_divisors_cases q p Hq D) as [?|?]; lia.
Qed.

Lemma prime_pow_divide p q k : prime p -> prime q -> 0 <= k -> (p | q ^ k) -> p = q.
Proof.
  intros Hp Hq Hk. pattern k. apply natlike_ind; [| |exact Hk].
  - rewrite Z.pow_0_r. intros D. apply Z.divide_1_r_nonneg in D; pose proof (prime_ge2 p Hp); lia.
  - intros j Hj IH. rewrite Z.pow_succ_r by lia. intros D.
    apply prime_mult in D; [|exact Hp]. destruct D as [D|D]; [|auto].
    destruct (prime_divisors_cases q p Hq D); pose proof (prime_ge2 p Hp); lia.
Qed.

(** Any divisor of a prime power is a prime power. *)
Lemma divides_prime_power p k d : prime p -> 0 <= k -> 0 <= d -> (d | p ^ k) ->
  exists j, 0 <= j <= k /\ d = p ^ j.
Proof.
  intros Hp Hk Hd. revert d Hd. pattern k. apply natlike_ind; [| |exact Hk].
  - intros d Hd. rewrite Z.pow_0_r. intros D. apply Z.divide_1_r_nonneg in D; [|lia].
    exists 0. split; [lia|]. rewrite Z.pow_0_r. exact D.
  - intros j Hj IH d Hd D.
    destruct (Zdivide_dec p d) as [[e He]|Hnd].
    + pose proof (prime_ge2 p Hp). rewrite He, (Z.mul_comm e), Z.pow_succ_r in D by lia.
      apply Z.mul_divide_cancel_l in D; [|lia].
      destruct (IH e ltac:(nia) D) as (i & Hi & Ei). exists (i + 1).
      split; [lia|]. rewrite Z.pow_add_r, Z.pow_1_r by lia. congruence.
    + assert (G : Z.gcd d p = 1).
      { rewrite Z.gcd_comm. apply Zgcd_1_rel_prime. apply prime_rel_prime; assumption. }
      rewrite Z.pow_succ_r in D by lia. apply Z.gauss in D; [|exact G].
      destruct (IH d Hd D) as (i & Hi & Ei). exists i. split; [lia|exact Ei].
Qed.
