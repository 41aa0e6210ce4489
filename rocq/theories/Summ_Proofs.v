(** * Dirichlet convolutions and the hyperbola method *)
From Coq Require Import ZArith List Bool Lia Znumtheory.
From Verif Require Import Base Sums NT Arith_Spec Arith_Proofs PC_Spec PC_Proofs PC_Proofs2 PC_Proofs8.
Import ListNotations.
Open Scope Z_scope.

(** [up f x] is the sum of [f] over [1..x]. *)
Definition up (f : Z -> Z) (x : Z) : Z := Sum 1 (x + 1) f.
(** the sum of [f d * g (m/d)] over the divisors [d] of [m]. *)
Definition conv (f g : Z -> Z) (m : Z) : Z := Sum 1 (m + 1) (fun d => if m mod d =? 0 then f d * g (m / d) else 0).

Lemma up_0 f : up f 0 = 0. Proof. unfold up. apply Sum_nil. lia. Qed.
Lemma up_next f x : 0 <= x -> up f (x + 1) = up f x + f (x + 1).
Proof. intros. unfold up. apply Sum_last. lia. Qed.
Lemma up_1 f : up f 1 = f 1. Proof. unfold up. apply Sum_one. Qed.

Lemma div_step n d : 1 <= d -> 0 <= n -> (n + 1) / d = n / d + (if (n + 1) mod d =? 0 then 1 else 0).
Proof.
  intros Hd Hn. pose proof (Z.div_mod n d ltac:(lia)) as E. pose proof (Z.mod_pos_bound n d ltac:(lia)) as B. destruct (Z.eqb_spec ((n + 1) mod d) 0) as [H|H].
  - assert (n mod d = d - 1). { destruct (Z.eq_dec (n mod d) (d - 1)); [assumption|]. exfalso. rewrite <- (Z.mod_unique (n + 1) d (n / d) (n mod d + 1)) in H; lia. }
    symmetry. apply Z.div_unique with 0; lia.
  - assert (n mod d <> d - 1). { intros X. apply H. symmetry. apply Z.mod_unique with (n / d + 1); lia. }
    symmetry. apply Z.div_unique with (n mod d + 1); lia.
Qed.

(** Summing a convolution. *)
Lemma dirichlet f g n : 0 <= n -> Sum 1 (n + 1) (fun d => f d * up g (n / d)) = up (conv f g) n.
Proof.
  intros Hn. pattern n. apply natlike_ind; [|clear n Hn; intros n Hn IH|exact Hn].
  - unfold up. rewrite !Sum_nil by lia. reflexivity.
  - unfold Z.succ. rewrite up_next by lia. rewrite <- IH. rewrite <- (Sum_extend 1 (n + 1) (n + 1 + 1) (fun d => f d * up g (n / d))) by (try lia; intros i Hi; replace i with (n + 1) by lia; rewrite Z.div_small by lia; rewrite up_0; lia).
    unfold conv. rewrite <- Sum_plus. apply Sum_ext. intros d Hd. rewrite (div_step n d) by lia. destruct ((n + 1) mod d =? 0).
    + rewrite up_next by (apply Z.div_pos; lia). ring.
    + rewrite Z.add_0_r. ring.
Qed.

Lemma div_le_iff n d k : 1 <= d -> k <= n / d <-> k * d <= n.
Proof.
  intros Hd. split; intros H.
  - pose proof (Z.mul_div_le n d ltac:(lia)). nia.
  - apply Z.div_le_lower_bound; lia.
Qed.

Lemma hyperbola f g n s : 0 <= s -> s * s <= n < (s + 1) * (s + 1) ->
  Sum 1 (n + 1) (fun d => f d * up g (n / d)) = Sum 1 (s + 1) (fun d => f d * up g (n / d)) + Sum 1 (s + 1) (fun k => g k * up f (n / k)) - up f s * up g s.
Proof.
  intros Hs Hn. assert (Hsn : s <= n) by nia. rewrite (Sum_app 1 (s + 1) (n + 1)) by lia.
  assert (E : Sum (s + 1) (n + 1) (fun d => f d * up g (n / d)) = Sum 1 (s + 1) (fun k => g k * (up f (n / k) - up f s))).
  { transitivity (Sum (s + 1) (n + 1) (fun d => Sum 1 (s + 1) (fun k => if k * d <=? n then f d * g k else 0))).
    - apply Sum_ext. intros d Hd. assert (D1 : 0 <= n / d) by (apply Z.div_pos; lia). assert (D2 : n / d <= s). { destruct (Z.le_gt_cases (n / d) s) as [|X]; [assumption|exfalso]. assert (Y : (s + 1) * d <= n) by (apply div_le_iff; lia). clear - Y Hd Hn Hs. nia. }
      unfold up. rewrite <- Sum_mul. rewrite (Sum_app 1 (n / d + 1) (s + 1)) by lia. rewrite (Sum_zero (n / d + 1) (s + 1)).
      + rewrite Z.add_0_r. apply Sum_ext. intros k Hk. assert (X : k * d <= n) by (apply div_le_iff; lia). apply Z.leb_le in X. rewrite X. reflexivity.
      + intros k Hk. destruct (Z.leb_spec (k * d) n) as [X|X]; [|reflexivity]. apply div_le_iff in X; lia.
    - rewrite Sum_swap. apply Sum_ext. intros k Hk. assert (K1 : s <= n / k) by (apply div_le_iff; [lia|]; clear - Hk Hn Hs; nia). assert (K2 : n / k <= n). { apply Z.div_le_upper_bound; [lia|]. clear - Hk Hn Hs Hsn. nia. }
      transitivity (g k * Sum (s + 1) (n / k + 1) f).
      + rewrite <- Sum_mul. rewrite (Sum_app (s + 1) (n / k + 1) (n + 1)) by lia. rewrite (Sum_zero (n / k + 1) (n + 1)).
        * rewrite Z.add_0_r. apply Sum_ext. intros d Hd. assert (X : k * d <= n) by (rewrite Z.mul_comm; apply div_le_iff; lia). apply Z.leb_le in X. rewrite X. ring.
        * intros d Hd. destruct (Z.leb_spec (k * d) n) as [X|X]; [|reflexivity]. rewrite Z.mul_comm in X. apply div_le_iff in X; lia.
      + f_equal. unfold up. rewrite (Sum_app 1 (s + 1) (n / k + 1)) by lia. lia. }
  rewrite E. rewrite (Sum_ext 1 (s + 1) (fun k => g k * (up f (n / k) - up f s)) (fun k => g k * up f (n / k) - g k * up f s)) by (intros; ring).
  rewrite Sum_minus, Sum_mul_r. fold (up g s). ring.
Qed.

Lemma dirichlet_swap f g n : 0 <= n -> Sum 1 (n + 1) (fun d => f d * up g (n / d)) = Sum 1 (n + 1) (fun d => g d * up f (n / d)).
Proof.
  intros Hn. pose proof (Z.sqrt_spec n Hn) as Q. cbv zeta in Q. unfold Z.succ in Q. pose proof (Z.sqrt_nonneg n) as Q0.
  rewrite (hyperbola f g n (Z.sqrt n)) by lia. rewrite (hyperbola g f n (Z.sqrt n)) by lia. ring.
Qed.

(** ** The divisor sums *)
Lemma zsum_filter (P : Z -> bool) (f : Z -> Z) a b : zsum (map f (filter P (zrange a b))) = Sum a b (fun d => if P d then f d else 0).
Proof.
  revert b. apply right_end with (a := a).
  - intros b Hb. rewrite zrange_nil, Sum_nil by lia. reflexivity.
  - intros b Hb IH. rewrite zrange_snoc by lia. rewrite filter_app, map_app, Sum_last by lia. unfold zsum in *. rewrite fold_right_app. cbn [filter].
    assert (G : forall l z, fold_right Z.add z l = fold_right Z.add 0 l + z) by (clear; induction l as [|x l IH]; intros z; cbn; [lia|rewrite IH; lia]).
    rewrite G, IH. destruct (P b); cbn; lia.
Qed.

Lemma count_filter (P : Z -> bool) a b : Z.of_nat (length (filter P (zrange a b))) = Sum a b (fun d => if P d then 1 else 0).
Proof.
  rewrite <- zsum_filter. induction (filter P (zrange a b)) as [|x l IH]; [reflexivity|]. unfold zsum in *. cbn [length map fold_right]. rewrite <- IH. lia.
Qed.

Lemma totient_Sum n : totient n = Sum 1 (n + 1) (fun k => if Z.gcd k n =? 1 then 1 else 0).
Proof. apply count_filter. Qed.
Lemma sigma_Sum n : sigma 1 n = conv (fun d => d) (fun _ => 1) n.
Proof. unfold sigma, all_divisors, conv. rewrite zsum_filter. apply Sum_ext. intros d Hd. rewrite Z.pow_1_r, Z.mul_1_r. reflexivity. Qed.

(** Each of [1..m] has exactly one gcd with [m]. *)
Lemma totient_divisors m : 1 <= m -> conv (fun _ => 1) totient m = m.
Proof.
  intros Hm. transitivity (Sum 1 (m + 1) (fun k => Sum 1 (m + 1) (fun d => if Z.gcd k m =? d then 1 else 0))).
  - rewrite Sum_swap. unfold conv. apply Sum_ext. intros d Hd. destruct (Z.eqb_spec (m mod d) 0) as [E|E].
    + rewrite Z.mul_1_l. rewrite totient_Sum. apply Z.mod_divide in E; [|lia]. destruct E as [c Ec].
      transitivity (Sum 1 (m + 1) (fun k => if k mod d =? 0 then (if Z.gcd k m =? d then 1 else 0) else 0)).
      * rewrite (Sum_multiples d (fun k => if Z.gcd k m =? d then 1 else 0) m) by lia. apply Sum_ext. intros k Hk. subst m. rewrite Z.div_mul by lia. rewrite (Z.mul_comm c d), Z.gcd_mul_mono_l_nonneg by lia.
        destruct (Z.eqb_spec (Z.gcd k c) 1) as [N|N]; destruct (Z.eqb_spec (d * Z.gcd k c) d) as [X|X]; [reflexivity|exfalso; apply X; rewrite N; lia|exfalso; apply N; clear - X Hd; nia|reflexivity].
      * apply Sum_ext. intros k Hk. destruct (Z.eqb_spec (k mod d) 0) as [X|X]; [reflexivity|]. destruct (Z.eqb_spec (Z.gcd k m) d) as [Y|Y]; [|reflexivity]. exfalso. apply X. apply Z.mod_divide; [lia|]. rewrite <- Y. apply Z.gcd_divide_l.
    + symmetry. apply Sum_zero. intros k Hk. destruct (Z.eqb_spec (Z.gcd k m) d) as [Y|Y]; [|reflexivity]. exfalso. apply E. apply Z.mod_divide; [lia|]. rewrite <- Y. apply Z.gcd_divide_r.
  - transitivity (Sum 1 (m + 1) (fun _ => 1)); [|rewrite Sum_ones by lia; lia]. apply Sum_ext. intros k Hk.
    assert (B : 1 <= Z.gcd k m <= m). { pose proof (Z.gcd_nonneg k m). assert (Z.gcd k m <> 0) by (intros X; apply Z.gcd_eq_0_l in X; lia). pose proof (Z.divide_pos_le (Z.gcd k m) m ltac:(lia) (Z.gcd_divide_r k m)). lia. }
    rewrite (Sum_pick 1 (m + 1) (Z.gcd k m)) by (try lia; intros i Hi N; destruct (Z.eqb_spec (Z.gcd k m) i); congruence). rewrite Z.eqb_refl. reflexivity.
Qed.

Lemma totient_weighted m : 1 <= m -> conv (fun d => d) (fun k => k * totient k) m = m * m.
Proof.
  intros Hm. rewrite <- (totient_divisors m Hm) at 3. unfold conv. rewrite <- Sum_mul. apply Sum_ext. intros d Hd. destruct (Z.eqb_spec (m mod d) 0) as [E|E]; [|lia].
  apply Z.div_exact in E; [|lia]. transitivity ((d * (m / d)) * totient (m / d)); [ring|]. rewrite <- E. ring.
Qed.

(** ** The Moebius function *)
Lemma moebius_1 m : is_moebius 1 m -> m = 1.
Proof.
  intros [(p & Hp & D & _)|[_ (ps & N & I & ->)]].
  - exfalso. pose proof (prime_ge_2 p Hp). apply Z.divide_1_r in D. nia.
  - destruct ps as [|p ps]; [reflexivity|]. exfalso. destruct (proj1 (I p) ltac:(left; reflexivity)) as [Hp D]. pose proof (prime_ge_2 p Hp). apply Z.divide_1_r in D. lia.
Qed.

Lemma moebius_square p d m : prime p -> (p | d) -> is_moebius (p * d) m -> m = 0.
Proof.
  intros Hp D [(q & _ & _ & ->)|[S _]]; [reflexivity|]. exfalso. apply (S p Hp). apply Z.mul_divide_mono_l, D.
Qed.

Lemma moebius_times p d m m' : prime p -> ~ (p | d) -> is_moebius d m -> is_moebius (p * d) m' -> m' = - m.
Proof.
  intros Hp ND M M'. apply (is_moebius_unique (p * d)); [exact M'|]. destruct M as [(q & Hq & D & ->)|[S (ps & N & I & ->)]].
  - left. exists q. split; [exact Hq|]. split; [apply Z.divide_mul_r, D|reflexivity].
  - right. split.
    + intros q Hq D. destruct (Z.eq_dec q p) as [->|Nq].
      * apply ND. apply Z.mul_divide_cancel_l in D; [exact D|]. pose proof (prime_ge_2 p Hp). lia.
      * apply (S q Hq). apply (Gauss _ p); [exact D|]. apply rel_prime_sym. apply rel_prime_mult; apply prime_rel_prime; try exact Hp; intros X; apply prime_div_prime in X; auto.
    + exists (p :: ps). split; [constructor; [|exact N]; intros X; apply I in X as [_ X]; exact (ND X)|]. split.
      * intros q. cbn [In]. split.
        -- intros [<-|X]; [split; [exact Hp|apply Z.divide_mul_l, Z.divide_refl]|]. apply I in X as [Hq D]. split; [exact Hq|apply Z.divide_mul_r, D].
        -- intros [Hq D]. apply prime_mult in D; [|exact Hq]. destruct D as [D|D]; [left; symmetry; apply prime_div_prime; auto|right; apply I; auto].
      * cbn [length]. rewrite Nat2Z.inj_succ, Z.pow_succ_r by lia. ring.
Qed.

Lemma moebius_divisors mu m : 1 <= m -> (forall k, 1 <= k <= m -> is_moebius k (mu k)) -> conv mu (fun _ => 1) m = if m =? 1 then 1 else 0.
Proof.
  intros Hm M. destruct (Z.eqb_spec m 1) as [->|N1].
  - unfold conv. change (1 + 1) with (1 + 1). rewrite Sum_one. cbn. rewrite (moebius_1 (mu 1)); [reflexivity|apply M; lia].
  - destruct (prime_divisor_exists m ltac:(lia)) as (p & Hp & D). pose proof (prime_ge_2 p Hp) as P2. destruct D as [c Ec]. assert (Hc : 1 <= c) by nia.
    assert (Hcm : c <= m) by nia. assert (Emc : m / p = c) by (rewrite Ec; apply Z.div_mul; lia).
    unfold conv. rewrite (Sum_ext 1 (m + 1) _ (fun d => (if d mod p =? 0 then (if m mod d =? 0 then mu d else 0) else 0) + (if d mod p =? 0 then 0 else if m mod d =? 0 then mu d else 0))).
    2:{ intros d Hd. destruct (d mod p =? 0), (m mod d =? 0); lia. }
    rewrite Sum_plus. rewrite (Sum_multiples p (fun d => if m mod d =? 0 then mu d else 0) m) by lia. rewrite Emc.
    rewrite (Sum_extend 1 (c + 1) (m + 1) (fun d => if d mod p =? 0 then 0 else if m mod d =? 0 then mu d else 0)).
    + rewrite <- Sum_plus. apply Sum_zero. intros k Hk. assert (MK : is_moebius k (mu k)) by (apply M; lia).
      assert (EQ : (m mod (p * k) =? 0) = (c mod k =? 0)). { apply Bool.eq_true_iff_eq. rewrite !Z.eqb_eq. rewrite !Z.mod_divide by nia. rewrite Ec, (Z.mul_comm c p). apply Z.mul_divide_cancel_l. lia. }
      rewrite EQ. destruct (Z.eqb_spec (c mod k) 0) as [Dk|Dk].
      * apply Z.mod_divide in Dk; [|lia]. assert (Mpk : is_moebius (p * k) (mu (p * k))). { apply M. pose proof (Z.divide_pos_le k c ltac:(lia) Dk). clear - H Hk Ec P2 Hc. split; nia. }
        destruct (Z.eqb_spec (k mod p) 0) as [Kp|Kp].
        -- apply Z.mod_divide in Kp; [|lia]. rewrite (moebius_square p k _ Hp Kp Mpk). reflexivity.
        -- assert (Np : ~ (p | k)) by (intros X; apply Kp, Z.mod_divide; [lia|exact X]). rewrite (moebius_times p k _ _ Hp Np MK Mpk).
           assert (X : m mod k =? 0 = true) by (apply Z.eqb_eq, Z.mod_divide; [lia|]; rewrite Ec; apply Z.divide_mul_l, Dk). rewrite X. lia.
      * destruct (Z.eqb_spec (k mod p) 0) as [Kp|Kp]; [reflexivity|]. assert (Np : ~ (p | k)) by (intros X; apply Kp, Z.mod_divide; [lia|exact X]).
        destruct (Z.eqb_spec (m mod k) 0) as [X|X]; [|reflexivity]. exfalso. apply Dk, Z.mod_divide; [lia|]. apply Z.mod_divide in X; [|lia]. rewrite Ec, Z.mul_comm in X. apply (Gauss _ p); [exact X|]. apply rel_prime_sym, prime_rel_prime; assumption.
    + lia.
    + intros k Hk. destruct (Z.eqb_spec (k mod p) 0) as [Kp|Kp]; [reflexivity|]. assert (Np : ~ (p | k)) by (intros X; apply Kp, Z.mod_divide; [lia|exact X]).
      destruct (Z.eqb_spec (m mod k) 0) as [X|X]; [|reflexivity]. exfalso. apply Z.mod_divide in X; [|lia]. rewrite Ec, Z.mul_comm in X. apply Gauss in X; [|apply rel_prime_sym, prime_rel_prime; assumption]. apply Z.divide_pos_le in X; lia.
Qed.

(** ** The four summatory identities *)
Lemma sum_phi n : 0 <= n -> Sum 1 (n + 1) (fun d => up totient (n / d)) = n * (n + 1) / 2.
Proof.
  intros Hn. rewrite <- Sum_id by lia. rewrite (Sum_ext 1 (n + 1) _ (fun d => 1 * up totient (n / d))) by (intros; ring). rewrite (dirichlet (fun _ => 1) totient) by lia. apply Sum_ext. intros m Hm. apply totient_divisors. lia.
Qed.

Lemma Sum_squares n : 0 <= n -> Sum 1 (n + 1) (fun m => m * m) = n * (n + 1) * (2 * n + 1) / 6.
Proof.
  intros Hn. assert (E : 6 * Sum 1 (n + 1) (fun m => m * m) = n * (n + 1) * (2 * n + 1)).
  { pattern n. apply natlike_ind; [|clear n Hn; intros n Hn IH|exact Hn]; [rewrite Sum_nil by lia; reflexivity|]. unfold Z.succ. rewrite Sum_last by lia. rewrite Z.mul_add_distr_l, IH. ring. }
  rewrite <- E, Z.mul_comm, Z.div_mul by lia. reflexivity.
Qed.

Lemma sum_weighted n : 0 <= n -> Sum 1 (n + 1) (fun d => d * up (fun k => k * totient k) (n / d)) = n * (n + 1) * (2 * n + 1) / 6.
Proof. intros Hn. rewrite <- Sum_squares by lia. rewrite (dirichlet (fun d => d)) by lia. apply Sum_ext. intros m Hm. apply totient_weighted. lia. Qed.

Lemma sum_mu mu n : 1 <= n -> (forall k, 1 <= k <= n -> is_moebius k (mu k)) -> Sum 1 (n + 1) (fun d => up mu (n / d)) = 1.
Proof.
  intros Hn M. rewrite (Sum_ext 1 (n + 1) _ (fun d => 1 * up mu (n / d))) by (intros; ring). rewrite (dirichlet_swap (fun _ => 1) mu) by lia. rewrite dirichlet by lia. unfold up.
  rewrite (Sum_ext 1 (n + 1) _ (fun m => if m =? 1 then 1 else 0)) by (intros m Hm; apply moebius_divisors; [lia|]; intros k Hk; apply M; lia).
  rewrite (Sum_pick 1 (n + 1) 1) by (try lia; intros i Hi N; destruct (Z.eqb_spec i 1); congruence). reflexivity.
Qed.

Lemma up_const n : 0 <= n -> up (fun _ => 1) n = n.
Proof. intros. unfold up. rewrite Sum_ones; lia. Qed.

Lemma sum_sigma n : 0 <= n -> up (sigma 1) n = Sum 1 (n + 1) (fun d => d * (n / d)).
Proof.
  intros Hn. unfold up. rewrite (Sum_ext 1 (n + 1) (sigma 1) (conv (fun d => d) (fun _ => 1))) by (intros; apply sigma_Sum). fold (up (conv (fun d => d) (fun _ => 1)) n). rewrite <- dirichlet by lia.
  apply Sum_ext. intros d Hd. rewrite up_const by (apply Z.div_pos; lia). reflexivity.
Qed.
