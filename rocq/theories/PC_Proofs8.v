(** * Lehmer's method: the formula *)
From Coq Require Import ZArith List Lia Bool Znumtheory Sorted.
From Verif Require Import Base Py Sums Lists Primes_Spec PrimeList_Data PrimeList_Proofs Core_Model Core_Spec Core_Props Sieves_Model Primes_Props PC_Model PC_Spec PC_Proofs PC_Proofs2 PC_Proofs3 PC_Proofs5 PC_Proofs6 PC_Proofs7.
From Verif Require Bertrand2.
Import ListNotations.
Open Scope Z_scope.

Lemma gauss a b : a <= b -> 2 * Sum a b (fun j => j) = (b - a) * (a + b - 1).
Proof.
  intros H. assert (X : forall k, 0 <= k -> 2 * Sum a (a + k) (fun j => j) = k * (2 * a + k - 1)).
  { intros k Hk. pattern k. apply natlike_ind; [rewrite Z.add_0_r, Sum_nil by lia; lia| |exact Hk]. intros m Hm IH. unfold Z.succ. rewrite Z.add_assoc, Sum_last by lia. lia. }
  specialize (X (b - a) ltac:(lia)). replace (a + (b - a)) with b in X by lia. rewrite X. lia.
Qed.
Lemma gauss2 a b : a <= b -> (b + a - 2) * (b - a + 1) / 2 = Sum a b (fun j => j) + a - 1.
Proof. intros H. pose proof (gauss a b H). symmetry. apply Z.div_unique_exact; lia. Qed.
Lemma Sum_ones a b : a <= b -> Sum a b (fun _ => 1) = b - a.
Proof.
  intros H. assert (X : forall k, 0 <= k -> Sum a (a + k) (fun _ => 1) = k).
  { intros k Hk. pattern k. apply natlike_ind; [rewrite Z.add_0_r, Sum_nil by lia; lia| |exact Hk]. intros m Hm IH. unfold Z.succ. rewrite Z.add_assoc, Sum_last by lia. lia. }
  specialize (X (b - a) ltac:(lia)). replace (a + (b - a)) with b in X by lia. exact X.
Qed.

(** The root that integer_sqrt returns. *)
Definition isq (x : Z) : Z := match integer_sqrt x with Ret r => r | _ => 0 end.
Lemma isq_spec x : 0 <= x -> integer_sqrt x = Ret (isq x) /\ Z.sqrt x <= isq x <= Z.sqrt x + 1 /\ x < (isq x + 1) * (isq x + 1).
Proof. intros H. destruct (near_sqrt x H) as (r & E & B). unfold isq. rewrite E. split; [reflexivity|exact B]. Qed.

Section lehmer.
  Context (n root r4 r2 r3 : Z) (fsqrt : Z -> Z) (ps : list Z).
  Hypothesis (Hn : 999983 < n) (Hroot : 0 <= root /\ p4 root <= n * n * n < p4 (root + 1)) (Hr4 : 0 <= r4 /\ p4 r4 <= n < p4 (r4 + 1)).
  Hypothesis (Hr2 : Z.sqrt n <= r2 <= Z.sqrt n + 1) (Hr2' : n < (r2 + 1) * (r2 + 1)) (Hr3 : 0 <= r3 /\ r3 * r3 * r3 <= n < (r3 + 1) * (r3 + 1) * (r3 + 1)).
  Hypothesis (Fl : sqrt_exact n fsqrt) (HP : primes_upto root ps).
  Notation lp := (last ps 0).
  Notation V := (V ps).

  Lemma big1 : r2 <= root /\ 31 <= r4 /\ 999 <= r2.
  Proof using Hn Hroot Hr4 Hr2. pose proof (root_s n root Hn Hroot). pose proof (s_spec n Hn). pose proof (r4_big n r4 Hn Hr4). lia. Qed.
  Lemma r4_r3 : r4 <= r3.
  Proof using Hn Hr4 Hr3. pose proof (r4_big n r4 Hn Hr4). destruct Hr4 as (A & B & C), Hr3 as (D & E & F). assert (r4 < r3 + 1); [|lia]. apply cube_lt; [lia|lia|]. apply Z.le_lt_trans with n; [|exact F]. unfold p4 in B. clear - B A H. nia. Qed.
  Lemma r3_r2 : r3 <= r2.
  Proof using Hn Hr3 Hr2. destruct Hr3 as (D & E & F). pose proof (s_spec n Hn) as (_ & _ & S2). assert (r3 < Z.sqrt n + 1); [|lia]. pose proof (Z.sqrt_nonneg n). set (s := Z.sqrt n) in *. clearbody s. destruct (Z.eq_dec r3 0) as [|]; [lia|]. apply sq_lt; [lia|lia|]. clear - D E S2 n0. nia. Qed.
  Lemma idx : pi r4 <= pi r3 /\ pi r3 <= pi r2 /\ pi r2 <= zlen ps /\ 7 < pi r2 /\ 1 <= pi r4.
  Proof using Hn Hroot Hr4 Hr2 Hr3 HP.
    destruct big1 as (B1 & B2 & B3). split; [apply pi_mono, r4_r3|]. split; [apply pi_mono, r3_r2|]. split; [apply (pi_range root ps HP), B1|].
    pose proof (pi_list 17 _ upto17) as P17. change (zlen [2; 3; 5; 7; 11; 13; 17]) with 7 in P17. pose proof (pi_mono 17 r4 ltac:(lia)). split; [|lia].
    destruct (Bertrand2.bertrand 17 ltac:(lia)) as (p & P & B). assert (I : In p ps) by (apply HP; split; [exact P|lia]). apply In_rd in I as (j & Hj & E). assert (j < pi r2) by (apply (pi_rd root ps HP); lia). destruct (Z_lt_le_dec j 7) as [L|L]; [|lia]. assert (rd ps j <= 17) by (apply (pi_rd root ps HP); lia). lia.
  Qed.
  Lemma lp_big : 2 * (r2 + 1) < lp.
  Proof using Hn Hroot Hr2 HP. pose proof (root_s n root Hn Hroot). pose proof (s_spec n Hn). pose proof (lp_half n root ps Hn Hroot HP). lia. Qed.
  (** A prime with index in [a, b). *)
  Lemma pj j : pi r4 <= j < pi r2 -> 0 <= j < zlen ps /\ r4 < rd ps j /\ rd ps j <= r2.
  Proof using Hn Hroot Hr4 Hr2 Hr3 HP.
    intros Hj. pose proof idx as (I1 & I2 & I3 & I4 & I5). destruct big1 as (B1 & B2 & B3). assert (J : 0 <= j < zlen ps) by lia. split; [exact J|]. split; [|apply (pi_rd root ps HP); lia].
    destruct (Z_lt_le_dec r4 (rd ps j)) as [|L]; [assumption|]. apply (pi_rd root ps HP) in L; try lia. pose proof (r4_r3). pose proof r3_r2. lia.
  Qed.

  Lemma V_n : V n (pi r4) = Phi one (pref ps (pi r4)) n.
  Proof using Hn Hroot Hr4 Hr2 Hr3 HP.
    pose proof idx as (I1 & I2 & I3 & I4 & I5). destruct big1 as (B1 & B2 & B3). apply (V_good n root r4 ps Hn Hroot Hr4 HP). assert (rd ps (pi r4 - 1) <= r4) by (pose proof r4_r3; pose proof r3_r2; apply (pi_rd root ps HP); lia). pose proof (s_spec n Hn) as (S1 & S2 & _). pose proof (r4_sq n r4 Hn Hr4) as S3.
    assert (r4 <= n) by (clear - S1 S2 S3 B2; nia). unfold ldom. lia.
  Qed.
  Lemma V_b q : 0 <= q <= n -> q < lp -> V q (pi r2) = pi q - pi r2 + 1.
  Proof using Hn Hroot Hr4 Hr2 Hr3 HP. intros Hq L. apply (V_direct ps q (pi r2)); [apply idx| |exact L]. apply pi_mono. pose proof (Z.sqrt_le_mono q n ltac:(lia)). lia. Qed.

  Definition S2 : Z := Sum (pi r4) (pi r3) (fun i => Sum i (pi (isq (n / rd ps i))) (fun j => pi (n / (rd ps i * rd ps j)) - j)).
  Lemma level i : pi r4 <= i < pi r3 -> let x := n / rd ps i in
    0 <= x <= n /\ isq x <= r2 /\ i <= pi (isq x) /\ Phi one (pref ps i) x = pi x - i + 1 + Sum i (pi (isq x)) (fun j => pi (n / (rd ps i * rd ps j)) - j).
  Proof using Hn Hroot Hr4 Hr2 Hr3 HP.
    intros Hi. pose proof idx as (I1 & I2 & I3 & I4 & I5). destruct big1 as (B1 & B2 & B3). destruct (pj i ltac:(lia)) as (J1 & J2 & J3). pose proof r3_r2 as R32. assert (J4 : rd ps i <= r3) by (apply (pi_rd root ps HP); lia). set (p := rd ps i) in *. intros x.
    assert (Hx : 0 <= x <= n) by (apply div_le; lia). split; [exact Hx|]. destruct (isq_spec x ltac:(lia)) as (_ & Q1 & Q2). assert (PX : p * p <= x). { apply Z.div_le_lower_bound; [lia|]. replace (p * (p * p)) with (p * p * p) by ring. pose proof (cube_mono p r3 ltac:(lia)). lia. }
    assert (XP : x < p * p * p). { apply Z.div_lt_upper_bound; [lia|]. pose proof (p4_mono (r4 + 1) p ltac:(lia)) as M. unfold p4 at 2 in M. lia. }
    pose proof (Z.sqrt_spec x ltac:(lia)) as SX. cbv zeta in SX. unfold Z.succ in SX. assert (PS : p <= Z.sqrt x) by (apply (proj1 (Z.sqrt_le_square x p ltac:(lia) ltac:(lia))); exact PX).
    assert (XN : Z.sqrt x + 1 <= Z.sqrt n). { pose proof (Z.mul_div_le n p ltac:(lia)) as M. fold x in M. pose proof (s_spec n Hn) as (_ & _ & SN). set (s := Z.sqrt x) in *. pose proof (Z.sqrt_nonneg n) as T0. set (t := Z.sqrt n) in *. clearbody s t. destruct (Z_le_gt_dec (s + 1) t) as [|G]; [assumption|exfalso]. assert (n < (s + 1) * (s + 1)) by (pose proof (sq_mono (t + 1) (s + 1) ltac:(lia)); lia). assert (32 * (s * s) <= n) by (clear - SX M J2 B2; nia). clear - H H0 PS J2 B2. nia. }
    split; [lia|]. set (y := isq x) in *. set (s := Z.sqrt x) in *. assert (Hy : i <= pi y) by (assert (i < pi y) by (apply (pi_rd root ps HP); fold p; lia); lia). split; [exact Hy|].
    assert (E := level2 root ps HP x y i ltac:(lia)). rewrite E; [|split; [lia|]|lia|lia|].
    - rewrite tri by exact Hy. rewrite Sum_minus. rewrite (Sum_ext i (pi y) (fun j => pi (x / rd ps j)) (fun j => pi (n / (p * rd ps j)))); [lia|]. intros j Hj. unfold x. rewrite Zdiv.Zdiv_Zdiv; [reflexivity|lia|]. pose proof (pi_range root ps HP y ltac:(lia)). pose proof (ps_ge2 root ps HP j ltac:(lia)). lia.
    - assert (s + 1 <= x); [|lia]. clear - SX PS J2 B2. nia.
    - intros j Hj. pose proof (pi_range root ps HP y ltac:(lia)). pose proof (ps_le root ps HP i j ltac:(lia) ltac:(lia)) as M. fold p in M. assert (rd ps j <= y) by (apply (pi_rd root ps HP); lia). split; [lia|]. split; [apply (div_ge2 _ s); lia|].
      apply Z.div_lt_upper_bound; [lia|]. pose proof (cube_mono p (rd ps j) ltac:(lia)). lia.
  Qed.
  Lemma formula : pi n = (pi r2 + pi r4 - 2) * (pi r2 - pi r4 + 1) / 2 + Phi one (pref ps (pi r4)) n - Sum (pi r4) (pi r2) (fun i => pi (n / rd ps i)) - S2.
  Proof using Hn Hroot Hr4 Hr2 Hr2' Hr3 HP.
    pose proof idx as (I1 & I2 & I3 & I4 & I5). destruct big1 as (B1 & B2 & B3). pose proof (s_spec n Hn) as (S1 & SN). rewrite gauss2 by lia.
    assert (RN : r2 <= n). { set (s := Z.sqrt n) in *. clearbody s. clear - S1 SN Hr2. nia. }
    pose proof (Phi_unfold root ps HP one n (pi r4) (pi r2) one_completely ltac:(lia) ltac:(lia) ltac:(lia)) as U. rewrite (Phi_pi root ps HP r2 n B1 ltac:(lia) Hr2') in U.
    assert (E : Sum (pi r4) (pi r2) (fun j => one (rd ps j) * Phi one (pref ps j) (n / rd ps j)) = Sum (pi r4) (pi r2) (fun i => pi (n / rd ps i)) - Sum (pi r4) (pi r2) (fun j => j) + (pi r2 - pi r4) + S2); [|lia].
    rewrite <- (Sum_ones (pi r4) (pi r2)) by lia. rewrite <- Sum_minus, <- Sum_plus. rewrite !(Sum_app (pi r4) (pi r3) (pi r2)) by lia. unfold S2.
    rewrite (Sum_ext (pi r4) (pi r3) (fun j => one (rd ps j) * Phi one (pref ps j) (n / rd ps j)) (fun i => (pi (n / rd ps i) - i + 1) + Sum i (pi (isq (n / rd ps i))) (fun j => pi (n / (rd ps i * rd ps j)) - j))).
    2:{ intros i Hi. destruct (level i Hi) as (_ & _ & _ & ->). unfold one. lia. }
    rewrite (Sum_ext (pi r3) (pi r2) (fun j => one (rd ps j) * Phi one (pref ps j) (n / rd ps j)) (fun i => (pi (n / rd ps i) - i + 1))); [rewrite !Sum_plus; lia|].
    intros j Hj. destruct (pj j ltac:(lia)) as (J1 & J2 & J3). assert (r3 < rd ps j). { destruct (Z_lt_le_dec r3 (rd ps j)) as [|L]; [assumption|]. pose proof r3_r2. apply (pi_rd root ps HP) in L; lia. }
    rewrite (Phi_last root ps HP j); [unfold one; lia|lia|lia|]. split; [apply (div_ge2 _ (Z.sqrt n)); lia|apply (div_lt_sq _ r3); lia].
  Qed.
End lehmer.
