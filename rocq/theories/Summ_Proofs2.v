(** * Proofs about rosemary/number_theory/arithmetic_functions/sums.py *)
From Coq Require Import ZArith List Bool Lia Znumtheory.
From Verif Require Import Base Py Dict Sums NT Arith_Spec Arith_Proofs PyFloat_Model PyFloat_Proofs Tab_Model Tab_Proofs Tab_Proofs3 PC_Proofs2 PC_Proofs8 Summ_Model Summ_Proofs.
Import ListNotations.
Open Scope Z_scope.

Lemma sqrt_facts n : 1 <= n -> 1 <= Z.sqrt n /\ Z.sqrt n * Z.sqrt n <= n < (Z.sqrt n + 1) * (Z.sqrt n + 1) /\ Z.sqrt n <= n.
Proof.
  intros Hn. pose proof (Z.sqrt_spec n ltac:(lia)) as Q. cbv zeta in Q. unfold Z.succ in Q. pose proof (Z.sqrt_nonneg n) as Q0. split; [|split]; nia.
Qed.

(** Abel summation on a table of sums. *)
Lemma abel g r : 0 <= r -> Sum 1 (r + 1) (fun d => up g (d - 1) + d * g d) = r * up g r.
Proof.
  intros Hr. pattern r. apply natlike_ind; [|clear r Hr; intros r Hr IH|exact Hr]; [rewrite Sum_nil by lia; reflexivity|].
  unfold Z.succ. rewrite (Sum_last 1 (r + 1)) by lia. rewrite IH. rewrite up_next by lia. replace (r + 1 - 1) with r by lia. ring.
Qed.

Lemma abel2 g r : 0 <= r -> Sum 1 (r + 1) (fun d => g d * up (fun j => j) (d - 1) + d * up g (d - 1) + d * g d) = up (fun j => j) r * up g r.
Proof.
  intros Hr. pattern r. apply natlike_ind; [|clear r Hr; intros r Hr IH|exact Hr]; [rewrite Sum_nil by lia; rewrite !up_0; reflexivity|].
  unfold Z.succ. rewrite (Sum_last 1 (r + 1)) by lia. rewrite IH. rewrite !up_next by lia. replace (r + 1 - 1) with r by lia. ring.
Qed.

Section Cache.
  Context (g : Z -> Z) (N s : Z) (tab : list Z).
  Hypothesis HN : 1 <= N < 2 ^ 52.
  Hypothesis Hs : s = Z.sqrt N.
  Hypothesis Lt : zlen tab = s + 1.

  Definition good (cache : list (Z * Z)) : Prop :=
    (forall k v, dget cache k = Some v -> v = up g k /\ 1 <= k) /\ (forall k, 1 <= k <= s -> dget cache k = Some (up g k)).

  Lemma start_good term : g 1 = 1 -> (forall k, 1 <= k <= s -> term k (rd tab k) = g k) -> exists cache, start_cache term s tab = Ret cache /\ good cache.
  Proof using HN Hs Lt.
    intros G1 R. destruct (sqrt_facts N ltac:(lia)) as (S1 & _). rewrite <- Hs in S1. unfold start_cache.
    destruct (foldM_range (fun cache i => do c <- dgetM cache (i - 1); do x <- pyget tab i; Ret (dset cache i (c + term i x)))
      (fun b cache => (forall k v, dget cache k = Some v -> v = up g k /\ 1 <= k) /\ (forall k, 1 <= k < b -> dget cache k = Some (up g k))) 2 (s + 1) [(1, 1)]) as (c & E & I1 & I2).
    - lia.
    - split.
      + intros k v. cbn [dget]. destruct (Z.eqb_spec 1 k) as [<-|]; [|discriminate]. intros [= <-]. rewrite up_1. lia.
      + intros k Hk. replace k with 1 by lia. cbn [dget]. rewrite Z.eqb_refl, up_1, G1. reflexivity.
    - intros b cache Hb (I1 & I2). unfold dgetM. rewrite I2 by lia. cbn [bind]. rewrite rd_get by lia. cbn [bind]. rewrite R by lia.
      assert (Eb : up g (b - 1) + g b = up g b) by (pose proof (up_next g (b - 1) ltac:(lia)) as X; replace (b - 1 + 1) with b in X by lia; lia).
      rewrite Eb. eexists. split; [reflexivity|]. split.
      + intros k v. rewrite dget_dset. destruct (Z.eqb_spec b k) as [<-|]; [|apply I1]. intros [= <-]. lia.
      + intros k Hk. rewrite dget_dset. destruct (Z.eqb_spec b k) as [<-|]; [reflexivity|]. apply I2. lia.
    - exists c. split; [exact E|]. split; [exact I1|]. intros k Hk. apply I2. lia.
  Qed.

  Lemma good_set cache n : good cache -> 1 <= n -> good (dset cache n (up g n)).
  Proof using Type.
    intros [G1 G2] Hn. split.
    - intros k v. rewrite dget_dset. destruct (Z.eqb_spec n k) as [<-|]; [|apply G1]. intros [= <-]. auto.
    - intros k Hk. rewrite dget_dset. destruct (Z.eqb_spec n k) as [<-|]; [reflexivity|]. apply G2, Hk.
  Qed.

  (** The situation in which a call misses the cache. *)
  Lemma miss cache n : good cache -> 1 <= n <= N -> dget cache n = None -> let r := Z.sqrt n in s < n /\ int_pow_half n = Ret r /\ 1 <= r <= s /\ r * r <= n < (r + 1) * (r + 1).
  Proof using HN Hs.
    intros [G1 G2] Hn M r. assert (s < n). { destruct (Z.le_gt_cases n s) as [X|]; [|assumption]. rewrite G2 in M by lia. discriminate. }
    destruct (sqrt_facts n ltac:(lia)) as (A & B & C). split; [assumption|]. split; [apply int_pow_half_exact; lia|]. split; [|exact B]. split; [exact A|]. rewrite Hs. apply Z.sqrt_le_mono. lia.
  Qed.

  Lemma quot_fuel n d f : 1 <= n -> n < 2 ^ Z.of_nat (S f) -> 2 <= d <= n -> 1 <= n / d <= n /\ n / d < 2 ^ Z.of_nat f.
  Proof using Type.
    intros Hn Hf Hd. rewrite Nat2Z.inj_succ, Z.pow_succ_r in Hf by lia. split; [split|].
    - apply Z.div_le_lower_bound; lia.
    - apply Z.div_le_upper_bound; [lia|]. nia.
    - apply Z.div_lt_upper_bound; [lia|]. nia.
  Qed.

  Definition right (rec : nat -> list Z -> Z -> list (Z * Z) -> outcome (Z * list (Z * Z))) : Prop :=
    forall fuel n cache, 1 <= n <= N -> n < 2 ^ Z.of_nat fuel -> good cache -> exists cache', rec fuel tab n cache = Ret (up g n, cache') /\ good cache'.
End Cache.

(** ** The sum of the totients *)
Lemma phi_S_right N s tab : 1 <= N < 2 ^ 52 -> s = Z.sqrt N -> zlen tab = s + 1 -> (forall k, 1 <= k <= s -> rd tab k = totient k) -> right totient N s tab phi_S.
Proof.
  intros HN Hs Lt R fuel. induction fuel as [|f IH]; intros n cache Hn Hf G; [cbn in Hf; lia|]. cbn [phi_S]. destruct (dget cache n) as [v|] eqn:M.
  - destruct G as [G1 G2]. destruct (G1 n v M) as [-> _]. exists cache. split; [reflexivity|split; assumption].
  - destruct (miss totient N s HN Hs cache n G Hn M) as (Hsn & -> & Hr & Hrn). cbn [bind]. set (r := Z.sqrt n) in *. unfold dgetM. rewrite (proj2 G r Hr). cbn [bind].
    destruct (foldM_range (fun '(value, cache) d => do '(x, cache) <- phi_S f tab (n / d) cache; do p <- pyget tab d; Ret (value + (x + p * (n / d)), cache))
      (fun b '(value, cache) => value = n - r * up totient r + Sum 2 b (fun d => up totient (n / d) + totient d * (n / d)) /\ good totient s cache) 2 (r + 1) (n - r * up totient r, cache)) as ((value & c) & E & V & Gc).
    + lia.
    + split; [rewrite Sum_nil by lia; lia|exact G].
    + intros b (value, c) Hb (V & Gc). assert (Hbn : b <= n) by (clear - Hb Hrn Hr; nia). destruct (quot_fuel n b f ltac:(lia) Hf ltac:(lia)) as [Q1 Q2].
      destruct (IH (n / b) c ltac:(lia) Q2 Gc) as (c' & -> & Gc'). cbn [bind]. rewrite rd_get by lia. cbn [bind]. eexists. split; [reflexivity|]. split; [|exact Gc']. rewrite R by lia. rewrite Sum_last by lia. lia.
    + rewrite E. cbn [bind]. assert (EV : n * (n + 1) / 2 - value = up totient n).
      { pose proof (sum_phi n ltac:(lia)) as T. rewrite (Sum_ext 1 (n + 1) _ (fun d => 1 * up totient (n / d))) in T by (intros; ring). rewrite (hyperbola (fun _ => 1) totient n r) in T by lia.
        rewrite (Sum_first 1 (r + 1) (fun d => 1 * up totient (n / d))) in T by lia. rewrite (Sum_first 1 (r + 1) (fun k => totient k * _)) in T by lia. rewrite Z.div_1_r in T. rewrite Sum_plus in V. change (1 + 1) with 2 in T.
        rewrite (Sum_ext 2 (r + 1) (fun d => 1 * up totient (n / d)) (fun d => up totient (n / d))) in T by (intros; ring).
        rewrite (Sum_ext 2 (r + 1) (fun k => totient k * up (fun _ => 1) (n / k)) (fun d => totient d * (n / d))) in T by (intros k Hk; rewrite up_const; [reflexivity|apply Z.div_pos; lia]).
        rewrite !up_const in T by lia. change (totient 1) with 1 in T. lia. }
      rewrite EV. eexists. split; [reflexivity|]. apply good_set; [exact Gc|lia].
Qed.

Lemma euler_phi_sum_ok n : 1 <= n < 2 ^ 52 -> euler_phi_sum n = Ret (up totient n).
Proof.
  intros Hn. unfold euler_phi_sum. destruct (Z.leb_spec n 0); [lia|]. rewrite int_pow_half_exact by lia. cbn [bind]. destruct (sqrt_facts n ltac:(lia)) as (S1 & _).
  destruct (euler_phi_list_ok (Z.sqrt n) S1) as (tab & -> & L & _ & R). cbn [bind]. destruct (start_good totient n (Z.sqrt n) tab Hn eq_refl L (fun _ x => x)) as (c & -> & G); [reflexivity|exact R|]. cbn [bind].
  destruct (phi_S_right n (Z.sqrt n) tab Hn eq_refl L R (bits n) n c ltac:(lia) (bits_spec n) G) as (c' & -> & _). reflexivity.
Qed.

(** ** The sum of the Moebius function *)
Lemma mu_M_right mu N s tab : 1 <= N < 2 ^ 52 -> s = Z.sqrt N -> zlen tab = s + 1 -> (forall k, 1 <= k <= s -> rd tab k = mu k) -> (forall k, 1 <= k <= N -> is_moebius k (mu k)) -> right mu N s tab mu_M.
Proof.
  intros HN Hs Lt R HM fuel. assert (M1 : mu 1 = 1) by (apply moebius_1, HM; lia). induction fuel as [|f IH]; intros n cache Hn Hf G; [cbn in Hf; lia|]. cbn [mu_M]. destruct (dget cache n) as [v|] eqn:M.
  - destruct G as [G1 G2]. destruct (G1 n v M) as [-> _]. exists cache. split; [reflexivity|split; assumption].
  - destruct (miss mu N s HN Hs cache n G Hn M) as (Hsn & -> & Hr & Hrn). cbn [bind]. set (r := Z.sqrt n) in *.
    destruct (foldM_range (fun '(value, cache) d => do '(x, cache) <- mu_M f tab (n / d) cache; do '(y, cache) <- mu_M f tab (d - 1) cache; do m <- pyget tab d; Ret (value + (x - y) + m * (n / d - d), cache))
      (fun b '(value, cache) => value = n - 1 + Sum 2 b (fun d => up mu (n / d) + mu d * (n / d) - (up mu (d - 1) + d * mu d)) /\ good mu s cache) 2 (r + 1) (n - 1, cache)) as ((value & c) & E & V & Gc).
    + lia.
    + split; [rewrite Sum_nil by lia; lia|exact G].
    + intros b (value, c) Hb (V & Gc). assert (Hbn : b <= n) by (clear - Hb Hrn Hr; nia). destruct (quot_fuel n b f ltac:(lia) Hf ltac:(lia)) as [Q1 Q2].
      destruct (IH (n / b) c ltac:(lia) Q2 Gc) as (c' & -> & Gc'). cbn [bind].
      assert (E' : mu_M f tab (b - 1) c' = Ret (up mu (b - 1), c')) by (destruct f; cbn [mu_M]; rewrite (proj2 Gc' (b - 1)) by lia; reflexivity).
      rewrite E'. cbn [bind]. rewrite rd_get by lia. cbn [bind]. eexists. split; [reflexivity|]. split; [|exact Gc']. rewrite R by lia. rewrite Sum_last by lia. lia.
    + rewrite E. cbn [bind]. assert (EV : 1 - value = up mu n).
      { pose proof (sum_mu mu n ltac:(lia) ltac:(intros k Hk; apply HM; lia)) as T. rewrite (Sum_ext 1 (n + 1) _ (fun d => 1 * up mu (n / d))) in T by (intros; ring). rewrite (hyperbola (fun _ => 1) mu n r) in T by lia.
        rewrite (Sum_first 1 (r + 1) (fun d => 1 * up mu (n / d))) in T by lia. rewrite (Sum_first 1 (r + 1) (fun k => mu k * _)) in T by lia. rewrite Z.div_1_r in T. rewrite Sum_minus, Sum_plus in V. change (1 + 1) with 2 in T.
        rewrite (Sum_ext 2 (r + 1) (fun d => 1 * up mu (n / d)) (fun d => up mu (n / d))) in T by (intros; ring).
        rewrite (Sum_ext 2 (r + 1) (fun k => mu k * up (fun _ => 1) (n / k)) (fun d => mu d * (n / d))) in T by (intros k Hk; rewrite up_const; [reflexivity|apply Z.div_pos; lia]).
        rewrite !up_const in T by lia. pose proof (abel mu r ltac:(lia)) as A. rewrite Sum_first in A by lia. change (1 - 1) with 0 in A. rewrite up_0 in A. change (1 + 1) with 2 in A. rewrite M1 in *. lia. }
      rewrite EV. eexists. split; [reflexivity|]. apply good_set; [exact Gc|lia].
Qed.

Lemma moebius_sum_ok n : 1 <= n < 2 ^ 52 -> exists mu, (forall k, 1 <= k <= n -> is_moebius k (mu k)) /\ moebius_sum n = Ret (up mu n).
Proof.
  intros Hn. destruct (moebius_list_ok n ltac:(lia)) as (all & _ & _ & _ & HM). exists (rd all). split; [exact HM|].
  unfold moebius_sum. destruct (Z.leb_spec n 0); [lia|]. rewrite int_pow_half_exact by lia. cbn [bind]. destruct (sqrt_facts n ltac:(lia)) as (S1 & _ & Sn).
  destruct (moebius_list_ok (Z.sqrt n) ltac:(lia)) as (tab & -> & L & _ & R0). cbn [bind]. assert (R : forall k, 1 <= k <= Z.sqrt n -> rd tab k = rd all k) by (intros k Hk; apply (is_moebius_unique k); [apply R0, Hk|apply HM; lia]).
  destruct (start_good (rd all) n (Z.sqrt n) tab Hn eq_refl L (fun _ x => x)) as (c & -> & G); [apply moebius_1, HM; lia|exact R|]. cbn [bind].
  destruct (mu_M_right (rd all) n (Z.sqrt n) tab Hn eq_refl L R HM (bits n) n c ltac:(lia) (bits_spec n) G) as (c' & -> & _). reflexivity.
Qed.

(** ** The weighted sum of the totients *)
Lemma tri_between a b : 1 <= a <= b + 1 -> (b - a + 1) * (b + a) = 2 * (up (fun j => j) b - up (fun j => j) (a - 1)).
Proof.
  intros H. unfold up. rewrite (Sum_app 1 (a - 1 + 1) (b + 1)) by lia. replace (a - 1 + 1) with a by lia. pose proof (gauss a (b + 1) ltac:(lia)). lia.
Qed.

Lemma sum_term d t q : 1 <= d <= q + 1 -> d * t * (q - d + 1) * (q + d) / 2 = d * t * (up (fun j => j) q - up (fun j => j) (d - 1)).
Proof.
  intros H. rewrite <- (Z.mul_assoc (d * t)), tri_between by lia. rewrite Z.mul_assoc, (Z.mul_comm (d * t) 2), <- Z.mul_assoc, Z.mul_comm, Z.div_mul by lia. reflexivity.
Qed.

Lemma foldM_sum tab (h : Z -> Z -> Z) a b : 0 <= a <= b -> b <= zlen tab -> foldM (fun s d => do t <- pyget tab d; Ret (s + h d t)) (zrange a b) 0 = Ret (Sum a b (fun d => h d (rd tab d))).
Proof.
  intros H L. destruct (foldM_range (fun s d => do t <- pyget tab d; Ret (s + h d t)) (fun c v => v = Sum a c (fun d => h d (rd tab d))) a b 0) as (v & E & V).
  - lia.
  - rewrite Sum_nil by lia. reflexivity.
  - intros c v Hc ->. rewrite rd_get by lia. cbn [bind]. eexists. split; [reflexivity|]. rewrite Sum_last by lia. reflexivity.
  - rewrite E, V. reflexivity.
Qed.

Lemma phi_T_right N s tab : 1 <= N < 2 ^ 52 -> s = Z.sqrt N -> zlen tab = s + 1 -> (forall k, 1 <= k <= s -> rd tab k = totient k) -> right (fun k => k * totient k) N s tab phi_T.
Proof.
  intros HN Hs Lt R fuel. set (g := fun k => k * totient k). induction fuel as [|f IH]; intros n cache Hn Hf G; [cbn in Hf; lia|]. cbn [phi_T]. destruct (dget cache n) as [v|] eqn:M.
  - destruct G as [G1 G2]. destruct (G1 n v M) as [-> _]. exists cache. split; [reflexivity|split; assumption].
  - destruct (miss g N s HN Hs cache n G Hn M) as (Hsn & -> & Hr & Hrn). cbn [bind]. set (r := Z.sqrt n) in *.
    rewrite (foldM_sum tab (fun d t => d * t * (n / d - d + 1) * (n / d + d) / 2)) by lia. cbn [bind].
    destruct (foldM_range (fun '(v, cache) d => do '(x, cache) <- phi_T f tab (n / d) cache; do '(y, cache) <- phi_T f tab (d - 1) cache; Ret (v + d * (x - y), cache))
      (fun b '(value, cache) => value = Sum 2 b (fun d => d * up g (n / d) - d * up g (d - 1)) /\ good g s cache) 2 (r + 1) (0, cache)) as ((value & c) & E & V & Gc).
    + lia.
    + split; [rewrite Sum_nil by lia; lia|exact G].
    + intros b (value, c) Hb (V & Gc). assert (Hbn : b <= n) by (clear - Hb Hrn Hr; nia). destruct (quot_fuel n b f ltac:(lia) Hf ltac:(lia)) as [Q1 Q2].
      destruct (IH (n / b) c ltac:(lia) Q2 Gc) as (c' & -> & Gc'). cbn [bind].
      assert (E' : phi_T f tab (b - 1) c' = Ret (up g (b - 1), c')) by (destruct f; cbn [phi_T]; rewrite (proj2 Gc' (b - 1)) by lia; reflexivity).
      rewrite E'. cbn [bind]. eexists. split; [reflexivity|]. split; [|exact Gc']. rewrite Sum_last by lia. lia.
    + rewrite E. cbn [bind]. rewrite (foldM_sum tab (fun d t => d * d * t)) by lia. cbn [bind].
      match goal with |- exists _, Ret (?v, _) = _ /\ _ => assert (EV : v = up g n) end.
      { rewrite (Sum_ext 1 (r + 1) (fun d => d * rd tab d * (n / d - d + 1) * (n / d + d) / 2) (fun d => g d * up (fun j => j) (n / d) - g d * up (fun j => j) (d - 1))).
        2:{ intros d Hd. assert (d <= n / d) by (apply Z.div_le_lower_bound; [lia|]; clear - Hd Hrn Hr; nia). rewrite sum_term by lia. rewrite R by lia. unfold g. ring. }
        rewrite (Sum_ext 1 (r + 1) (fun d => d * d * rd tab d) (fun d => d * g d)) by (intros d Hd; rewrite R by lia; unfold g; ring).
        pose proof (sum_weighted n ltac:(lia)) as T. fold g in T. rewrite (hyperbola (fun d => d) g n r) in T by lia. rewrite <- (abel2 g r) in T by lia. rewrite <- T, V.
        rewrite !Sum_plus, !Sum_minus. rewrite (Sum_first 1 (r + 1) (fun d => d * up g (n / d))) by lia. rewrite (Sum_first 1 (r + 1) (fun d => d * up g (d - 1))) by lia.
        rewrite Z.div_1_r. change (1 - 1) with 0. change (1 + 1) with 2. rewrite up_0. ring. }
      rewrite EV. eexists. split; [reflexivity|]. apply good_set; [exact Gc|lia].
Qed.

Lemma euler_phi_weighted_sum_ok n : 1 <= n < 2 ^ 52 -> euler_phi_weighted_sum n = Ret (up (fun k => k * totient k) n).
Proof.
  intros Hn. unfold euler_phi_weighted_sum. destruct (Z.leb_spec n 0); [lia|]. rewrite int_pow_half_exact by lia. cbn [bind]. destruct (sqrt_facts n ltac:(lia)) as (S1 & _).
  destruct (euler_phi_list_ok (Z.sqrt n) S1) as (tab & -> & L & _ & R). cbn [bind]. destruct (start_good (fun k => k * totient k) n (Z.sqrt n) tab Hn eq_refl L (fun i x => i * x)) as (c & -> & G); [reflexivity|intros k Hk; rewrite R by lia; reflexivity|]. cbn [bind].
  destruct (phi_T_right n (Z.sqrt n) tab Hn eq_refl L R (bits n) n c ltac:(lia) (bits_spec n) G) as (c' & -> & _). reflexivity.
Qed.

(** ** The sum of the divisor sums *)
Lemma sigma_fold n r : 0 <= r -> fold_left (fun value k => let nk := n / k in let tt := nk - k + 1 in value + 2 * k * tt + tt * (nk + k)) (zrange 1 (r + 1)) (- r * (r + 1))
  = - r * (r + 1) + Sum 1 (r + 1) (fun k => 2 * k * (n / k - k + 1) + (n / k - k + 1) * (n / k + k)).
Proof.
  intros Hr. generalize (- r * (r + 1)). intros v. pattern r. apply natlike_ind; [|clear r Hr; intros r Hr IH|exact Hr].
  - rewrite zrange_nil, Sum_nil by lia. cbn. lia.
  - unfold Z.succ. rewrite (zrange_snoc 1 (r + 1)) by lia. rewrite fold_left_app. rewrite (Sum_last 1 (r + 1)) by lia. rewrite Z.add_assoc, <- IH. cbn [fold_left]. cbv zeta. lia.
Qed.

Lemma cubes r : 0 <= r -> Sum 1 (r + 1) (fun k => 3 * k * k - 3 * k) = (r - 1) * r * (r + 1).
Proof.
  intros Hr. pattern r. apply natlike_ind; [|clear r Hr; intros r Hr IH|exact Hr]; [rewrite Sum_nil by lia; reflexivity|].
  unfold Z.succ. rewrite (Sum_last 1 (r + 1)) by lia. rewrite IH. ring.
Qed.

(** What the loop computes from the exact root. *)
Lemma sigma_exact n r : 1 <= r -> r * r <= n < (r + 1) * (r + 1) ->
  - r * (r + 1) + Sum 1 (r + 1) (fun k => 2 * k * (n / k - k + 1) + (n / k - k + 1) * (n / k + k)) = 2 * up (sigma 1) n.
Proof.
  intros Hr Hn. assert (0 <= n) by nia. rewrite sum_sigma by lia. rewrite (Sum_ext 1 (n + 1) _ (fun d => d * up (fun _ => 1) (n / d))) by (intros d Hd; rewrite up_const; [reflexivity|apply Z.div_pos; lia]).
  rewrite (hyperbola (fun d => d) (fun _ => 1) n r) by lia. rewrite (Sum_ext 1 (r + 1) (fun d => d * up (fun _ => 1) (n / d)) (fun d => d * (n / d))) by (intros d Hd; rewrite up_const; [reflexivity|apply Z.div_pos; lia]).
  rewrite up_const by lia.
  assert (T : forall q, 0 <= q -> 2 * up (fun j => j) q = q * (q + 1)) by (intros q Hq; pose proof (tri_between 1 q ltac:(lia)) as X; change (1 - 1) with 0 in X; rewrite up_0 in X; lia).
  assert (E2 : 2 * Sum 1 (r + 1) (fun k => 1 * up (fun d => d) (n / k)) = Sum 1 (r + 1) (fun k => (n / k) * (n / k + 1))).
  { rewrite <- Sum_mul. apply Sum_ext. intros k Hk. rewrite <- T by (apply Z.div_pos; lia). ring. }
  pose proof (T r ltac:(lia)) as Tr. pose proof (cubes r ltac:(lia)) as Cr.
  rewrite (Sum_ext 1 (r + 1) _ (fun k => 2 * (k * (n / k)) + (n / k) * (n / k + 1) - (3 * k * k - 3 * k))) by (intros; ring).
  rewrite Sum_minus, Sum_plus, Sum_mul, Cr. lia.
Qed.

Lemma sigma_sum_ok n : 1 <= n < 2 ^ 52 -> sigma_sum n = Ret (up (sigma 1) n).
Proof.
  intros Hn. unfold sigma_sum. destruct (Z.leb_spec n 0); [lia|]. rewrite int_pow_half_exact by lia. cbn [bind]. destruct (sqrt_facts n ltac:(lia)) as (S1 & S2 & _).
  rewrite sigma_fold by lia. rewrite sigma_exact by lia. rewrite Z.mul_comm, Z.div_mul by lia. reflexivity.
Qed.

(** One past the root: the answer drops by the root. *)
Lemma sigma_sum_past n r : 1 <= n -> 1 <= r -> n = (r + 1) * (r + 1) - 1 -> int_pow_half n = Ret (r + 1) -> sigma_sum n = Ret (up (sigma 1) n - (r + 1)).
Proof.
  intros Hn Hr En E. unfold sigma_sum. destruct (Z.leb_spec n 0); [lia|]. rewrite E. cbn [bind]. rewrite sigma_fold by lia. rewrite Sum_last by lia.
  assert (Q : n / (r + 1) = r) by (symmetry; apply Z.div_unique with r; lia). rewrite Q. pose proof (sigma_exact n r Hr ltac:(lia)) as X.
  f_equal. symmetry. apply Z.div_unique with 0; [lia|]. lia.
Qed.
