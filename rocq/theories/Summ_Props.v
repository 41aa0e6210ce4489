(** * C76: sums of arithmetic functions *)
From Coq Require Import ZArith List Bool Lia Znumtheory.
From Verif Require Import Base Arith_Spec PyFloat_Proofs PyFloat_Proofs2 Summ_Model Sums Summ_Proofs Summ_Proofs2.
Import ListNotations.
Open Scope Z_scope.

Lemma zsum_up f n : zsum (map f (zrange 1 (n + 1))) = up f n.
Proof.
  unfold up, zsum. change (fold_right Z.add 0 (map f (zrange 1 (n + 1)))) with (zsum (map f (zrange 1 (n + 1)))).
  assert (E : filter (fun _ => true) (zrange 1 (n + 1)) = zrange 1 (n + 1)) by (induction (zrange 1 (n + 1)) as [|x l IH]; cbn; congruence).
  rewrite <- E, zsum_filter. reflexivity.
Qed.

(** The sum of the totients of [1, ..., n]. *)
Theorem C76_euler_phi_sum n : 1 <= n < 2 ^ 52 ->
  euler_phi_sum n = Ret (zsum (map totient (zrange 1 (n + 1)))).
Proof. intros H. rewrite zsum_up. apply euler_phi_sum_ok, H. Qed.

(** The sum of [k * totient k]. *)
Theorem C76_euler_phi_weighted_sum n : 1 <= n < 2 ^ 52 ->
  euler_phi_weighted_sum n = Ret (zsum (map (fun k => k * totient k) (zrange 1 (n + 1)))).
Proof. intros H. rewrite zsum_up. apply euler_phi_weighted_sum_ok, H. Qed.

(** The sum of the values of the Moebius function (the Mertens function):
    [mu] is any function with these values. *)
Theorem C76_moebius_sum n : 1 <= n < 2 ^ 52 ->
  exists v, moebius_sum n = Ret v /\
  (exists mu, forall k, 1 <= k <= n -> is_moebius k (mu k)) /\
  (forall mu, (forall k, 1 <= k <= n -> is_moebius k (mu k)) -> v = zsum (map mu (zrange 1 (n + 1)))).
Proof.
  intros H. destruct (moebius_sum_ok n H) as (mu & M & E). exists (up mu n). split; [exact E|]. split; [exists mu; exact M|].
  intros mu' M'. rewrite zsum_up. unfold up. apply Sum_ext. intros k Hk. apply (Arith_Proofs.is_moebius_unique k); [apply M|apply M']; lia.
Qed.

(** The sum of the divisor sums. *)
Theorem C76_sigma_sum n : 1 <= n < 2 ^ 52 ->
  sigma_sum n = Ret (zsum (map (sigma 1) (zrange 1 (n + 1)))).
Proof. intros H. rewrite zsum_up. apply sigma_sum_ok, H. Qed.

(** All four refuse arguments below 1. *)
Theorem C76_errors n : n <= 0 ->
  euler_phi_sum n = Raise ValueError /\ euler_phi_weighted_sum n = Raise ValueError /\
  moebius_sum n = Raise ValueError /\ sigma_sum n = Raise ValueError.
Proof.
  intros H. unfold euler_phi_sum, euler_phi_weighted_sum, moebius_sum, sigma_sum. apply Z.leb_le in H. rewrite H. auto.
Qed.

(** Beyond the exact range of the floating-point root [sigma_sum] is wrong one below every square: it is
    short by [a] at [a^2 - 1]. *)
Theorem C76_sigma_sum_refuted a : 2 ^ 26 < a <= 2 ^ 52 -> sigma_sum (a * a - 1) = Ret (zsum (map (sigma 1) (zrange 1 (a * a - 1 + 1))) - a).
Proof.
  intros Ha. rewrite zsum_up. pose proof (sigma_sum_past (a * a - 1) (a - 1)) as P. replace (a - 1 + 1) with a in P by lia. apply P; [nia|lia|lia|]. rewrite int_pow_half_below_square by exact Ha. reflexivity.
Qed.

Print Assumptions C76_euler_phi_sum.
Print Assumptions C76_euler_phi_weighted_sum.
Print Assumptions C76_moebius_sum.
Print Assumptions C76_sigma_sum.
Print Assumptions C76_errors.
Print Assumptions C76_sigma_sum_refuted.

(** Non-vacuity: the documented values at 100. *)
Example ex_sums : euler_phi_sum 100 = Ret 3044 /\ euler_phi_weighted_sum 100 = Ret 203085 /\
  moebius_sum 100 = Ret 1 /\ sigma_sum 100 = Ret 8299 /\ zsum (map (sigma 1) (zrange 1 101)) = 8299.
Proof. vm_compute. repeat split; reflexivity. Qed.
