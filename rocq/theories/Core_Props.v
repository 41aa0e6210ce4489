(** * Theorems about core.py (C01-C07, C09) *)
From Coq Require Import ZArith List Lia.
From Verif Require Import Base PyFloat_Model Core_Model Core_Spec.
From Verif Require PyFloat_Proofs PyFloat_Proofs2 Core_Proofs Core_Proofs2 Core_Proofs3.
Import ListNotations.
Open Scope Z_scope.

(** ** C01 *)

Theorem C01_gcd : forall x y, gcd x y = Ret (Z.gcd x y).
Proof. exact Core_Proofs.gcd_correct. Qed.

Theorem C01_ext_gcd : forall x y, exists a b,
  ext_gcd x y = Ret (a, b, Z.gcd x y) /\ a * x + b * y = Z.gcd x y.
Proof. exact Core_Proofs.ext_gcd_correct. Qed.

Theorem C01_lcm : forall x y, lcm x y = Ret (Z.lcm x y).
Proof. exact Core_Proofs.lcm_correct. Qed.

(** The gcd of a list of two or more integers: the non-negative common divisor
    that every common divisor divides. *)
Theorem C01_gcd_list : forall L, (2 <= length L)%nat -> exists d, gcd_list L = Ret d /\ 0 <= d /\
  forall c, (c | d) <-> (forall x, In x L -> (c | x)).
Proof.
  intros [|a [|b L]] H; simpl in H; try lia. eexists. split; [apply Core_Proofs.gcd_list_correct|].
  split; [apply Z.gcd_nonneg|]. intros c. split.
  - intros Hc x Hx. etransitivity; [exact Hc|]. apply Core_Proofs.fold_gcd_divide, Hx.
  - apply Core_Proofs.fold_gcd_greatest.
Qed.

Theorem C01_lcm_list : forall L, (2 <= length L)%nat -> exists m, lcm_list L = Ret m /\ 0 <= m /\
  forall c, (m | c) <-> (forall x, In x L -> (x | c)).
Proof.
  intros [|a [|b L]] H; simpl in H; try lia. eexists. split; [apply Core_Proofs.lcm_list_correct|].
  split; [apply Z.lcm_nonneg|]. intros c. split.
  - intros Hc x Hx. etransitivity; [|exact Hc]. apply Core_Proofs.fold_lcm_divide, Hx.
  - apply Core_Proofs.fold_lcm_least.
Qed.

Theorem C01_short_lists : forall a,
  gcd_list [a] = Ret a /\ lcm_list [a] = Ret a /\
  gcd_list [] = Raise IndexError /\ lcm_list [] = Raise IndexError.
Proof. repeat split. Qed.

Example C01_ex : gcd_list [12; -18; 8] = Ret 2 /\ lcm_list [4; -6; 10] = Ret 60 /\
  ext_gcd 12 (-18) = Ret (-1, -1, 6).
Proof. vm_compute. auto. Qed.

(** ** C02 *)

Theorem C02_power_mod : forall a k m, 0 <= a -> 0 <= k -> 1 <= m ->
  ~ (k = 0 /\ 1 < m /\ (m | a)) ->
  power_mod a k m = Ret (a ^ k mod m).
Proof.
  intros a k m Ha Hk Hm H. apply Core_Proofs.power_mod_correct; auto.
  destruct (Z.eq_dec k 0) as [Hk0|]; [|auto]. destruct (Z.eq_dec m 1) as [|Hm1]; [auto|].
  right; right. intros E. apply H. repeat split; try lia.
  apply Z.mod_divide; [lia|exact E].
Qed.

(** The deviating case: documented value 1, returned value 0. *)
Theorem C02_power_mod_refuted : forall a m, 0 <= a -> 1 < m -> (m | a) ->
  power_mod a 0 m = Ret 0 /\ a ^ 0 mod m = 1.
Proof.
  intros a m Ha Hm Hd. split; [apply Core_Proofs.power_mod_zero_exponent; auto|].
  rewrite Z.pow_0_r. apply Z.mod_1_l. lia.
Qed.

Theorem C02_power_mod_error : forall a k m, a < 0 \/ k < 0 \/ m < 1 ->
  power_mod a k m = Raise ValueError.
Proof. exact Core_Proofs.power_mod_error. Qed.

Example C02_ex : power_mod 3 100 101 = Ret 1 /\ power_mod 10 0 5 = Ret 0.
Proof. vm_compute. auto. Qed.

(** ** C03 *)

Theorem C03_inverse_mod : forall a m, 2 <= m -> Z.gcd a m = 1 ->
  exists x, inverse_mod a m = Ret x /\ 0 <= x < m /\ (a * x) mod m = 1 /\
    (forall y, 0 <= y < m -> (a * y) mod m = 1 -> y = x).
Proof.
  intros a m Hm Hg. destruct (Core_Proofs.inverse_mod_correct a m Hm Hg) as (x & E & Hx & H).
  exists x. repeat split; try tauto; try lia.
  intros y Hy Ey. symmetry. eapply Core_Proofs.inverse_unique; eauto.
Qed.

Theorem C03_inverse_mod_error : forall a m, m < 2 \/ Z.gcd a m <> 1 ->
  inverse_mod a m = Raise ValueError.
Proof. exact Core_Proofs.inverse_mod_error. Qed.

Example C03_ex : Z.gcd 5 17 = 1 /\ inverse_mod 5 17 = Ret 7 /\ inverse_mod (-3) 10 = Ret 3.
Proof. vm_compute. auto. Qed.

(** ** C04 *)

Theorem C04_integer_nth_root : forall n m, 1 <= n -> n <> 2 -> 0 <= m ->
  exists r, integer_nth_root n m = Ret r /\ is_floor_root n m r.
Proof. exact Core_Proofs2.integer_nth_root_correct. Qed.

Theorem C04_integer_nth_root_error : forall n m, m < 0 \/ n < 1 ->
  integer_nth_root n m = Raise ValueError.
Proof. exact Core_Proofs2.integer_nth_root_error. Qed.

(** [integer_nth_root(2, m)] is [integer_sqrt(m)]. *)
Theorem C04_integer_nth_root_2 : forall m, integer_nth_root 2 m = integer_sqrt m.
Proof.
  intros m. unfold integer_nth_root, integer_sqrt. destruct (m <? 0); reflexivity.
Qed.

Theorem C04_integer_sqrt_exact : forall n, (0 <= n < 2 ^ 52 \/ 2 ^ 60 < n) ->
  exists r, integer_sqrt n = Ret r /\ is_floor_root 2 n r.
Proof.
  intros n Hn. exists (Z.sqrt n). assert (H0 : 0 <= n) by lia.
  split.
  - destruct Hn as [Hn|Hn]; [|apply Core_Proofs2.integer_sqrt_big; exact Hn].
    unfold integer_sqrt. destruct (Z.ltb_spec n 0); [lia|].
    destruct (Z.eqb_spec n 0) as [->|]; [reflexivity|].
    destruct (Z.eqb_spec n 1) as [->|]; [reflexivity|]. cbn [orb].
    destruct (Z.leb_spec n (2 ^ 60)); [|lia]. apply PyFloat_Proofs.int_pow_half_exact. lia.
  - pose proof (Z.sqrt_nonneg n). pose proof (Z.sqrt_spec n H0) as S. cbv zeta in S.
    split; [assumption|]. rewrite !Z.pow_2_r. lia.
Qed.

(** In the floating-point range the result is never too small and too large by
    at most one ... *)
Theorem C04_integer_sqrt_near : forall n, 0 <= n ->
  exists r, integer_sqrt n = Ret r /\ Z.sqrt n <= r <= Z.sqrt n + 1.
Proof.
  intros n Hn. destruct (Z_lt_le_dec (2 ^ 60) n) as [H|H].
  - exists (Z.sqrt n). split; [apply Core_Proofs2.integer_sqrt_big; exact H|lia].
  - unfold integer_sqrt. destruct (Z.ltb_spec n 0); [lia|].
    destruct (Z.eqb_spec n 0) as [->|]; [exists 0; split; [reflexivity|change (Z.sqrt 0) with 0; lia]|].
    destruct (Z.eqb_spec n 1) as [->|]; [exists 1; split; [reflexivity|change (Z.sqrt 1) with 1; lia]|]. cbn [orb].
    destruct (Z.leb_spec n (2 ^ 60)); [|lia].
    apply PyFloat_Proofs.int_pow_half_bounds. lia.
Qed.

(** ... and from (2^26 + 1)^2 - 1 to 2^60 - 1 it is too large one below every square. *)
Theorem C04_integer_sqrt_refuted : forall a, 2 ^ 26 < a <= 2 ^ 30 ->
  integer_sqrt (a * a - 1) = Ret a /\ ~ is_floor_root 2 (a * a - 1) a.
Proof.
  intros a Ha. split; [|intros [_ [H _]]; rewrite Z.pow_2_r in H; lia]. assert (2 ^ 52 <= a * a - 1 < 2 ^ 60) by (change (2 ^ 52) with (2 ^ 26 * 2 ^ 26); change (2 ^ 60) with (2 ^ 30 * 2 ^ 30); nia).
  unfold integer_sqrt. destruct (Z.ltb_spec (a * a - 1) 0); [lia|]. destruct (Z.eqb_spec (a * a - 1) 0); [lia|]. destruct (Z.eqb_spec (a * a - 1) 1); [lia|]. cbn [orb].
  destruct (Z.leb_spec (a * a - 1) (2 ^ 60)); [|lia]. apply PyFloat_Proofs2.int_pow_half_below_square. lia.
Qed.
(** Below 2^53 it is wrong nowhere else. *)
Theorem C04_integer_sqrt_exact_53 : forall n, 2 ^ 52 <= n < 2 ^ 53 -> (forall a, n + 1 <> a * a) ->
  exists r, integer_sqrt n = Ret r /\ is_floor_root 2 n r.
Proof.
  intros n Hn N. exists (Z.sqrt n). split.
  - unfold integer_sqrt. destruct (Z.ltb_spec n 0); [lia|]. destruct (Z.eqb_spec n 0); [lia|]. destruct (Z.eqb_spec n 1); [lia|]. cbn [orb].
    destruct (Z.leb_spec n (2 ^ 60)); [|lia]. apply PyFloat_Proofs2.int_pow_half_exact_53; assumption.
  - pose proof (Z.sqrt_nonneg n). pose proof (Z.sqrt_spec n ltac:(lia)) as S. cbv zeta in S. unfold is_floor_root. rewrite !Z.pow_2_r. unfold Z.succ in S. lia.
Qed.
Example C04_refuted_ex : integer_sqrt (2 ^ 60 - 1) = Ret (2 ^ 30) /\ integer_sqrt (2 ^ 52 + 2 ^ 27) = Ret (2 ^ 26 + 1) /\ integer_sqrt (2 ^ 52 + 2 ^ 27 - 1) = Ret (2 ^ 26).
Proof. vm_compute. auto. Qed.

Theorem C04_integer_sqrt_error : forall n, n < 0 -> integer_sqrt n = Raise ValueError.
Proof. intros n H. unfold integer_sqrt. destruct (Z.ltb_spec n 0); [reflexivity|lia]. Qed.

(** The specification determines the result. *)
Theorem C04_floor_root_unique : forall n m r r', 1 <= n ->
  is_floor_root n m r -> is_floor_root n m r' -> r = r'.
Proof. exact Core_Proofs2.is_floor_root_unique. Qed.

Example C04_ex : integer_nth_root 3 (10 ^ 40) = Ret 21544346900318 /\
  integer_sqrt (10 ^ 40 - 1) = Ret (10 ^ 20 - 1).
Proof. vm_compute. auto. Qed.

(** ** C05 *)

Theorem C05_integer_log : forall b n, 2 <= b -> 1 <= n ->
  exists k, integer_log b n = Ret k /\ 0 <= k /\ b ^ k <= n < b ^ (k + 1).
Proof. exact Core_Proofs2.integer_log_correct. Qed.

Theorem C05_integer_log_error : forall b n, b < 2 \/ n < 1 -> integer_log b n = Raise ValueError.
Proof. exact Core_Proofs2.integer_log_error. Qed.

Example C05_ex : integer_log 5 (5 ^ 20) = Ret 20 /\ integer_log 5 (5 ^ 20 - 1) = Ret 19.
Proof. vm_compute. auto. Qed.

(** ** C06 *)

(** Two or more congruences with positive moduli: if the moduli are pairwise
    coprime the result is the unique solution in [0, M); otherwise ValueError. *)
Theorem C06_chinese : forall cs, (2 <= length cs)%nat -> (forall a m, In (a, m) cs -> 0 < m) ->
  (pairwise_coprime (map snd cs) ->
     exists x, chinese cs = Ret x /\ 0 <= x < zprod (map snd cs) /\ solves x cs /\
       forall y, 0 <= y < zprod (map snd cs) -> solves y cs -> y = x) /\
  (~ pairwise_coprime (map snd cs) -> chinese cs = Raise ValueError).
Proof.
  intros [|c1 [|c2 cs]] Hl Hpos; simpl in Hl; try lia.
  assert (Hpos' : forall c, In c (c1 :: c2 :: cs) -> 0 < snd c).
  { intros [a m] H. eapply Hpos, H. }
  destruct (Core_Proofs3.chinese_correct c1 c2 cs Hpos') as [[Hp (x & E & Hx & Hs)]|[Hp E]].
  - split; [|contradiction]. intros _. exists x. split; [exact E|]. split; [exact Hx|].
    split; [exact Hs|]. intros y Hy Sy. eapply Core_Proofs3.solves_unique; eauto.
  - split; [contradiction|]. intros _. exact E.
Qed.

Theorem C06_chinese_preconditioned : forall cs m0 ms, map snd cs = m0 :: ms ->
  1 <= m0 -> (forall m, In m ms -> 2 <= m) -> pairwise_coprime (m0 :: ms) ->
  exists data x, crt_preconditioning_data (m0 :: ms) = Ret data /\
    chinese_preconditioned cs data = Ret x /\
    0 <= x < zprod (m0 :: ms) /\ solves x cs /\
    (ms <> [] -> chinese cs = Ret x).
Proof.
  intros cs m0 ms E H0 H2 Hp.
  destruct (Core_Proofs3.chinese_preconditioned_correct cs m0 ms E H0 H2 Hp)
    as (data & x & E1 & E2 & Hx & Hs).
  exists data, x. split; [exact E1|]. split; [exact E2|]. split; [exact Hx|]. split; [exact Hs|].
  intros Hne. assert (Hl : (2 <= length cs)%nat).
  { rewrite <- (map_length snd), E. destruct ms; [congruence|simpl; lia]. }
  destruct (C06_chinese cs Hl) as [C _].
  - intros a m Hin. apply (in_map snd) in Hin. rewrite E in Hin. destruct Hin as [H|H]; simpl in H.
    + lia.
    + specialize (H2 _ H). lia.
  - rewrite E in C. destruct (C Hp) as (y & Ey & Hy & Sy & U).
    rewrite Ey. f_equal. symmetry. apply U; assumption.
Qed.

Theorem C06_short : forall x m, chinese [(x, m)] = Ret x /\ chinese [] = Raise IndexError /\
  crt_preconditioning_data [] = Raise IndexError.
Proof. repeat split. Qed.

Example C06_ex : pairwise_coprime (map snd [(2, 3); (3, 5); (2, 7)]) /\
  chinese [(2, 3); (3, 5); (2, 7)] = Ret 23 /\ chinese [(3, 8); (5, 10)] = Raise ValueError.
Proof. split; [repeat constructor|]. vm_compute. auto. Qed.

(** ** C07 *)

Theorem C07_valuation : forall p n, 2 <= p -> 1 <= n ->
  exists k, valuation p n = Ret k /\ 0 <= k /\ (p ^ k | n) /\ ~ (p ^ (k + 1) | n).
Proof. exact Core_Proofs2.valuation_correct. Qed.

(** For [n <= 0] the result is 0 whatever the true valuation, for instance
    [valuation(2, -8) == 0]. *)
Theorem C07_valuation_nonpositive : forall p n, 2 <= p -> n <= 0 -> valuation p n = Ret 0.
Proof. exact Core_Proofs2.valuation_nonpositive. Qed.

Theorem C07_valuation_refuted : forall p n, 2 <= p -> n < 0 -> (p | n) ->
  exists k, valuation p n = Ret k /\ (p ^ (k + 1) | n).
Proof. intros p n Hp Hn Hd. exists 0. split; [apply Core_Proofs2.valuation_nonpositive; lia|]. rewrite Z.pow_1_r. exact Hd. Qed.

(** [valuation(1, n)] does not terminate. *)
Theorem C07_valuation_diverges : forall n, 1 <= n -> valuation 1 n = Diverge.
Proof. exact Core_Proofs2.valuation_one. Qed.

Theorem C07_valuation_diverges_minus_one : forall n, 1 <= n -> valuation (-1) n = Diverge.
Proof.
  intros n Hn. rewrite <- (Core_Proofs2.valuation_one n Hn). unfold valuation.
  replace (n mod -1) with 0 by (symmetry; apply Z.mod_divide; [lia|]; exists (- n); lia). rewrite Z.mod_1_r.
  destruct (Z.ltb_spec n (-1)), (Z.ltb_spec n 1); try lia. reflexivity.
Qed.
Lemma C07_valuation_self p : 2 <= p -> valuation p p = Ret 1.
Proof.
  intros Hp. destruct (C07_valuation p p Hp ltac:(lia)) as (k & -> & Hk & D & N). f_equal. assert (k <> 0) by (intros ->; apply N; rewrite Z.pow_1_r; apply Z.divide_refl).
  destruct (Z.eq_dec k 1) as [|K]; [assumption|]. exfalso. apply Z.divide_pos_le in D; [|lia]. assert (p ^ 2 <= p ^ k) by (apply Z.pow_le_mono_r; lia). rewrite Z.pow_2_r in *. nia.
Qed.
(** A negative base is replaced by its absolute value when n is positive. For n = 0 the loop never ends. *)
Theorem C07_valuation_negative_base : forall p n, 2 <= p -> 1 <= n -> valuation (- p) n = valuation p n.
Proof.
  intros p n Hp Hn. unfold valuation. destruct (Z.eqb_spec (- p) 0), (Z.eqb_spec p 0); try lia. rewrite Z.abs_opp.
  destruct (Z.eqb_spec (n mod p) 0) as [E|E].
  - rewrite (proj2 (Z.eqb_eq (n mod - p) 0)); [|rewrite Z.mod_opp_r_z by (assumption || lia); reflexivity].
    cbn [negb orb]. apply Z.mod_divide in E; [|lia]. assert (p <= n) by (apply Z.divide_pos_le; [lia|exact E]). destruct (Z.ltb_spec n (- p)), (Z.ltb_spec n p); try lia. reflexivity.
  - destruct (Z.eqb_spec (n mod - p) 0) as [E'|E']; [|reflexivity]. exfalso. apply E. apply Z.mod_divide; [lia|]. apply Z.mod_divide in E'; [|lia]. apply Z.divide_opp_l. exact E'.
Qed.
(** Both negative: 0 is returned for every multiple of p but p itself. *)
Theorem C07_valuation_negative_both : forall p n, 2 <= p -> n < 0 -> (p | n) -> valuation (- p) n = Ret (if n =? - p then 1 else 0).
Proof.
  intros p n Hp Hn Hd. destruct (Z.eqb_spec n (- p)) as [->|D].
  - rewrite <- (C07_valuation_self p Hp). unfold valuation. destruct (Z.eqb_spec (- p) 0), (Z.eqb_spec p 0); try lia. rewrite !Z.mod_same, Z.abs_opp, !Z.ltb_irrefl by lia. reflexivity.
  - unfold valuation. destruct (Z.eqb_spec (- p) 0); [lia|]. destruct (Z.ltb_spec n (- p)) as [L|L]; [rewrite Bool.orb_true_r; reflexivity|].
    exfalso. destruct Hd as (k & ->). assert (k < 0) by nia. assert (- 1 < k) by nia. lia.
Qed.
Theorem C07_valuation_zero_negative_base : forall p, p < 0 -> valuation p 0 = Diverge.
Proof.
  intros p Hp. unfold valuation. destruct (Z.eqb_spec p 0); [lia|]. rewrite Z.mod_0_l by lia. cbn [Z.eqb negb orb]. destruct (Z.ltb_spec 0 p); [lia|].
  rewrite (run_never _ (fun s => fst (fst s) <> 0)); [reflexivity| |cbn [fst]; lia].
  intros [[pk lo] hi] N. cbn [fst] in N. unfold valuation_up. rewrite Z.mod_0_l by exact N. cbn [Z.eqb]. eexists. split; [reflexivity|]. cbn [fst]. nia.
Qed.

Example C07_ex : valuation 3 3628800 = Ret 4 /\ valuation 6 (6 ^ 9 * 2) = Ret 9.
Proof. vm_compute. auto. Qed.

(** ** C09 *)

Theorem C09_bit_count : forall n, bit_count n = Ret (popcount n).
Proof. exact Core_Proofs2.bit_count_correct. Qed.

Example C09_ex : bit_count (-5) = Ret 2 /\ bit_count 1729 = Ret 5.
Proof. vm_compute. auto. Qed.

Print Assumptions C01_gcd.
Print Assumptions C01_ext_gcd.
Print Assumptions C01_lcm.
Print Assumptions C01_gcd_list.
Print Assumptions C01_lcm_list.
Print Assumptions C02_power_mod.
Print Assumptions C02_power_mod_refuted.
Print Assumptions C03_inverse_mod.
Print Assumptions C03_inverse_mod_error.
Print Assumptions C04_integer_nth_root.
Print Assumptions C04_integer_sqrt_exact.
Print Assumptions C04_integer_sqrt_near.
Print Assumptions C04_integer_sqrt_refuted.
Print Assumptions C04_integer_sqrt_exact_53.
Print Assumptions C05_integer_log.
Print Assumptions C06_chinese.
Print Assumptions C06_chinese_preconditioned.
Print Assumptions C07_valuation.
Print Assumptions C07_valuation_diverges.
Print Assumptions C07_valuation_refuted.
Print Assumptions C07_valuation_diverges_minus_one.
Print Assumptions C07_valuation_negative_base.
Print Assumptions C07_valuation_zero_negative_base.
Print Assumptions C07_valuation_negative_both.
Print Assumptions C09_bit_count.
