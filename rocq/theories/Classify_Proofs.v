(** * Perfect powers and squares *)
From Coq Require Import ZArith List Bool Lia Znumtheory.
From Verif Require Import Base Loop NT NT_Euler Core_Model Core_Spec Core_Proofs Core_Proofs2 Float2_Proofs Classify_Model Factor_Spec Factor_Proofs Div_Proofs NT_Prim Classify2_Model.
Import ListNotations.
Open Scope Z_scope.

Lemma root_ok k n : 2 <= k -> 0 <= n -> exists r, integer_nth_root k n = Ret r /\ 0 <= r /\ forall b, 0 <= b -> b ^ k = n -> r = b.
Proof.
  intros Hk Hn. destruct (Z.eq_dec k 2) as [->|N2].
  - assert (E : integer_nth_root 2 n = integer_sqrt n) by (unfold integer_nth_root, integer_sqrt; destruct (n <? 0); reflexivity). rewrite E.
    destruct (square_test n Hn) as (r & Er & Hr & Q). exists r. split; [exact Er|]. split; [exact Hr|]. intros b Hb Eb. rewrite Z.pow_2_r in Eb. assert (r * r = n) by (apply Q; exists b; lia). nia.
  - destruct (integer_nth_root_correct k n ltac:(lia) N2 Hn) as (r & Er & Hr & L). exists r. split; [exact Er|]. split; [exact Hr|]. intros b Hb <-. destruct L as [L1 L2]. apply Z.pow_lt_mono_l_iff in L2; [|lia..]. assert (r <= b) by (apply Z.pow_le_mono_l_iff with k; lia). lia.
Qed.

Lemma pow_base_inj a b k : 0 <= a -> 0 <= b -> 1 <= k -> a ^ k = b ^ k -> a = b.
Proof.
  intros Ha Hb Hk E. destruct (Z.lt_trichotomy a b) as [L|[L|L]]; [|exact L|].
  - assert (a ^ k < b ^ k) by (apply Z.pow_lt_mono_l; lia). lia.
  - assert (b ^ k < a ^ k) by (apply Z.pow_lt_mono_l; lia). lia.
Qed.

Lemma pow_exp_inj b j k : 2 <= b -> 0 <= j -> 0 <= k -> b ^ j = b ^ k -> j = k.
Proof.
  intros Hb Hj Hk E. destruct (Z.lt_trichotomy j k) as [L|[L|L]]; [|exact L|].
  - assert (b ^ j < b ^ k) by (apply Z.pow_lt_mono_r; lia). lia.
  - assert (b ^ k < b ^ j) by (apply Z.pow_lt_mono_r; lia). lia.
Qed.

Lemma pow_divide a b k : 1 <= a -> 1 <= b -> 1 <= k -> (a ^ k | b ^ k) -> (a | b).
Proof.
  intros Ha Hb Hk D. set (g := Z.gcd a b). assert (Hg : 1 <= g) by (assert (X := Z.gcd_nonneg a b); assert (g <> 0) by (intros E; apply Z.gcd_eq_0_l in E; lia); unfold g in *; lia).
  destruct (Z.gcd_divide_l a b) as (a' & Ea), (Z.gcd_divide_r a b) as (b' & Eb). fold g in Ea, Eb.
  assert (G : Z.gcd a' b' = 1). { assert (X := Z.gcd_div_gcd a b g ltac:(lia) eq_refl). rewrite Ea, Eb in X. rewrite !Z.div_mul in X by lia. exact X. }
  assert (G2 : Z.gcd (a' ^ k) (b' ^ k) = 1). { apply gcd_1_pow; [lia|]. rewrite Z.gcd_comm. apply gcd_1_pow; [lia|]. rewrite Z.gcd_comm. exact G. }
  assert (D2 : (a' ^ k | b' ^ k)). { rewrite Ea, Eb, !Z.pow_mul_l in D. destruct D as (q & E). exists q. assert (0 < g ^ k) by (apply Z.pow_pos_nonneg; lia). apply Z.mul_reg_r with (g ^ k); [lia|]. rewrite E. ring. }
  assert (D3 : (a' ^ k | 1)). { rewrite <- G2. apply Z.gcd_greatest; [apply Z.divide_refl|exact D2]. }
  assert (Ha' : 1 <= a') by nia. assert (E1 : a' ^ k = 1) by (apply Z.divide_1_r_nonneg; [apply Z.pow_nonneg; lia|exact D3]).
  assert (a' = 1) as ->. { apply (pow_base_inj a' 1 k); [lia|lia|lia|]. rewrite Z.pow_1_l by lia. exact E1. }
  rewrite Ea, Z.mul_1_l. apply Z.gcd_divide_r.
Qed.

(** Two powers with the same value have a common base. *)
Lemma common_base : forall N b c e f, e + f <= Z.of_nat N -> 1 <= e -> 1 <= f -> 1 <= b -> 1 <= c -> b ^ e = c ^ f -> exists t, 1 <= t /\ b = t ^ (f / Z.gcd e f) /\ c = t ^ (e / Z.gcd e f).
Proof.
  induction N as [|N IH]; [intros; lia|].
  assert (Main : forall b c e f, e + f <= Z.of_nat (S N) -> 1 <= e -> e < f -> 1 <= b -> 1 <= c -> b ^ e = c ^ f -> exists t, 1 <= t /\ b = t ^ (f / Z.gcd e f) /\ c = t ^ (e / Z.gcd e f)).
  { intros b c e f L He Hf Hb Hc E. assert (D : (c | b)). { apply (pow_divide c b e); [lia..|]. rewrite E. exists (c ^ (f - e)). rewrite <- Z.pow_add_r by lia. f_equal. lia. }
    destruct D as (s & Es). assert (Hs : 1 <= s) by nia. assert (E2 : s ^ e = c ^ (f - e)). { assert (0 < c ^ e) by (apply Z.pow_pos_nonneg; lia). apply Z.mul_reg_r with (c ^ e); [lia|]. rewrite <- Z.pow_mul_l, <- Es, E, <- Z.pow_add_r by lia. f_equal. lia. }
    destruct (IH s c e (f - e)) as (t & Ht & E3 & E4); [lia..|exact E2|].
    assert (G : Z.gcd e (f - e) = Z.gcd e f) by (rewrite Z.gcd_sub_diag_r; reflexivity). rewrite G in *. set (g := Z.gcd e f) in *. assert (0 < g) by (assert (X := Z.gcd_nonneg e f); assert (g <> 0) by (intros X0; apply Z.gcd_eq_0_l in X0; lia); unfold g in *; lia).
    exists t. split; [exact Ht|]. split; [|exact E4]. destruct (Z.gcd_divide_l e f) as (e' & Ee), (Z.gcd_divide_r e f) as (f' & Ef). fold g in Ee, Ef. rewrite Es, E3, E4. rewrite Ee, Ef. rewrite <- Z.mul_sub_distr_r. rewrite !Z.div_mul by lia. rewrite <- Z.pow_add_r by nia. f_equal. lia. }
  intros b c e f L He Hf Hb Hc E. destruct (Z.lt_trichotomy e f) as [Lt|[->|Lt]].
  - apply Main; assumption.
  - apply pow_base_inj in E; [|lia..]. subst c. rewrite Z.gcd_diag, Z.abs_eq by lia. rewrite Z.div_same by lia. exists b. rewrite Z.pow_1_r. auto.
  - destruct (Main c b f e) as (t & Ht & E1 & E2); [lia..|symmetry; exact E|]. exists t. rewrite (Z.gcd_comm e f). auto.
Qed.

(** [b] is not a power with an exponent of 2 or more. *)
Definition no_power (b : Z) : Prop := forall c k, 2 <= k -> 0 <= c -> c ^ k <> b.

Lemma max_exponent b e c f : 2 <= b -> no_power b -> 1 <= e -> 1 <= f -> 0 <= c -> b ^ e = c ^ f -> (f | e).
Proof.
  intros Hb NP He Hf Hc E. assert (Hc1 : 1 <= c). { destruct (Z.eq_dec c 0) as [->|]; [|lia]. rewrite Z.pow_0_l in E by lia. assert (0 < b ^ e) by (apply Z.pow_pos_nonneg; lia). lia. }
  destruct (common_base (Z.to_nat (e + f)) b c e f) as (t & Ht & E1 & E2); [lia..|exact E|]. set (g := Z.gcd e f) in *. destruct (Z.gcd_divide_l e f) as (e' & Ee), (Z.gcd_divide_r e f) as (f' & Ef). fold g in Ee, Ef.
  assert (0 < g) by (assert (X := Z.gcd_nonneg e f); assert (g <> 0) by (intros X0; apply Z.gcd_eq_0_l in X0; lia); unfold g in *; lia).
  assert (f / g = f') by (rewrite Ef; apply Z.div_mul; lia). rewrite H0 in E1. assert (1 <= f') by nia. destruct (Z.eq_dec f' 1) as [->|N1].
  - exists e'. lia.
  - exfalso. apply (NP t f'); [lia|lia|]. symmetry. exact E1.
Qed.

Lemma log2_root b k n : 2 <= b -> 2 <= k -> b ^ k = n -> Z.log2 b < Z.log2 n /\ k <= Z.log2 n.
Proof.
  intros Hb Hk <-. assert (B : b * b <= b ^ k) by (rewrite <- Z.pow_2_r; apply Z.pow_le_mono_r; lia). assert (1 <= Z.log2 b) by (change 1 with (Z.log2 2); apply Z.log2_le_mono; lia).
  split.
  - apply Z.lt_le_trans with (Z.log2 (b * b)); [|apply Z.log2_le_mono; exact B]. assert (Z.log2 b + Z.log2 b <= Z.log2 (b * b)) by (apply Z.log2_mul_below; lia). lia.
  - apply Z.log2_le_pow2; [apply Z.pow_pos_nonneg; lia|]. apply Z.pow_le_mono_l. lia.
Qed.

Lemma bit_length_log2 n : 1 <= n -> bit_length n = Z.log2 n + 1.
Proof. intros Hn. unfold bit_length. destruct (Z.eqb_spec n 0); [lia|]. rewrite Z.abs_eq by lia. reflexivity. Qed.

(** ** is_power *)
Lemma search_ok n inner : 1 <= n -> forall ks, (forall k, In k ks -> 2 <= k) ->
  (is_power_search n ks inner = Ret None /\ forall k b, In k ks -> 0 <= b -> b ^ k <> n) \/
  (exists k b, In k ks /\ 0 <= b /\ b ^ k = n /\ is_power_search n ks inner = inner b k).
Proof.
  intros Hn. induction ks as [|k ks IH]; intros H; [left; split; [reflexivity|intros k b []]|]. cbn [is_power_search]. destruct (root_ok k n (H k (or_introl eq_refl)) ltac:(lia)) as (r & Er & Hr & Q). rewrite Er. cbn [bind].
  destruct (Z.eqb_spec (r ^ k) n) as [E|E].
  - right. exists k, r. split; [left; reflexivity|]. auto.
  - destruct IH as [(E1 & E2)|(k' & b & I & Hb & Eb & E1)]; [intros k' Hk'; apply H; right; exact Hk'|left; split; [exact E1|]|right; exists k', b; split; [right; exact I|]; auto].
    intros k' b [<-|I] Hb Eb; [|exact (E2 k' b I Hb Eb)]. apply E. rewrite (Q b Hb Eb). exact Eb.
Qed.

Lemma is_power_fuel_ok : forall fuel n, 1 <= n -> (Z.to_nat (bit_length n) < fuel)%nat ->
  (is_power_fuel fuel n = Ret None /\ (n = 1 \/ no_power n)) \/
  (exists b e, is_power_fuel fuel n = Ret (Some (b, e)) /\ 2 <= b /\ 2 <= e /\ b ^ e = n /\ no_power b).
Proof.
  induction fuel as [|f IH]; intros n Hn Hf; [lia|]. rewrite (bit_length_log2 n Hn) in Hf. cbn [is_power_fuel]. destruct (Z.ltb_spec n 1); [lia|].
  match goal with |- context [is_power_search n _ ?X] => set (inner := X) end.
  destruct (Z.eq_dec n 1) as [->|N1].
  { left. split; [reflexivity|left; reflexivity]. }
  destruct (search_ok n inner Hn (zrange 2 (bit_length n + 1))) as [(E1 & E2)|(k & b & Ik & Hb & Eb & E1)].
  - intros k Hk. apply zrange_In in Hk. lia.
  - left. split; [exact E1|]. right. intros c k Hk Hc Ec. apply (E2 k c); [|exact Hc|exact Ec]. apply zrange_In. rewrite (bit_length_log2 n Hn).
    assert (2 <= c). { assert (c <> 0) by (intros ->; rewrite Z.pow_0_l in Ec; lia). assert (c <> 1) by (intros ->; rewrite Z.pow_1_l in Ec; lia). lia. }
    destruct (log2_root c k n) as (_ & L); [lia..|exact Ec|]. lia.
  - right. apply zrange_In in Ik. assert (Hb2 : 2 <= b). { assert (b <> 0) by (intros ->; rewrite Z.pow_0_l in Eb; lia). assert (b <> 1) by (intros ->; rewrite Z.pow_1_l in Eb; lia). lia. }
    rewrite E1. destruct (log2_root b k n) as (L & L2); [lia..|exact Eb|]. assert (1 <= Z.log2 b) by (change 1 with (Z.log2 2); apply Z.log2_le_mono; lia).
    assert (Hfb : (Z.to_nat (bit_length b) < f)%nat) by (rewrite bit_length_log2 by lia; lia). destruct f as [|f]; [lia|].
    unfold inner at 1. destruct (IH b ltac:(lia) Hfb) as [(Eq & NP)|(b' & e' & Eq & Hb' & He' & Ebe & NP)].
    + rewrite Eq. cbn [bind]. exists b, k. split; [reflexivity|]. split; [lia|]. split; [lia|]. split; [exact Eb|]. destruct NP as [->|NP]; [lia|exact NP].
    + rewrite Eq. cbn [bind]. assert (L3 : Z.log2 b' <= Z.log2 b) by (destruct (log2_root b' e' b); [lia..|exact Ebe|lia]). destruct (IH b' ltac:(lia)) as [(Eq' & NP')|(b'' & e'' & _ & Hb'' & He'' & Ee'' & _)]; [rewrite bit_length_log2 in * by lia; lia| |exfalso; apply (NP b'' e''); [lia|lia|exact Ee'']].
      rewrite Eq'. cbn [bind]. exists b', (k * e'). split; [reflexivity|]. split; [lia|]. split; [nia|]. split; [|exact NP]. rewrite Z.mul_comm, Z.pow_mul_r by lia. rewrite Ebe. exact Eb.
Qed.

(** ** is_power2 and is_power with an exponent *)
Lemma is_power2_ok n :
  (is_power2 n = Ret None /\ forall r k, 2 <= r -> 2 <= k -> r ^ k <> n) \/
  (exists r k, is_power2 n = Ret (Some (r, k)) /\ 2 <= r /\ 2 <= k /\ r ^ k = n /\ forall c j, 2 <= j < k -> 0 <= c -> c ^ j <> n).
Proof.
  destruct (Z_lt_le_dec n 1) as [Hn|Hn].
  { left. split.
    - unfold is_power2, run. assert (E : wl (is_power2_step n) (bits (bit_length n)) 2 = inr (Ret None)). { apply (wl_more _ 0); [|lia]. cbn [wl]. unfold is_power2_step. destruct (Z.leb_spec (2 ^ 2) n) as [L|L]; [change (2 ^ 2) with 4 in L; lia|reflexivity]. } rewrite E. reflexivity.
    - intros r k Hr Hk E. assert (0 < r ^ k) by (apply Z.pow_pos_nonneg; lia). lia. }
  unfold is_power2.
  apply (run_rule (is_power2_step n) (fun k => 2 <= k /\ forall c j, 2 <= j < k -> 0 <= c -> c ^ j <> n) (fun k => Z.log2 n + 1 - k)
    (fun o => (o = Ret None /\ forall r k, 2 <= r -> 2 <= k -> r ^ k <> n) \/ (exists r k, o = Ret (Some (r, k)) /\ 2 <= r /\ 2 <= k /\ r ^ k = n /\ forall c j, 2 <= j < k -> 0 <= c -> c ^ j <> n))).
  - intros k (Hk & H). unfold is_power2_step. destruct (Z.leb_spec (2 ^ k) n) as [L|L].
    + assert (Lk : k <= Z.log2 n) by (apply Z.log2_le_pow2; lia). destruct (root_ok k n Hk ltac:(lia)) as (r & -> & Hr & Q). destruct (Z.eqb_spec (r ^ k) n) as [E|E].
      * right. exists r, k. split; [reflexivity|]. split; [|auto]. assert (r <> 0) by (intros ->; rewrite Z.pow_0_l in E; lia). assert (r <> 1) by (intros ->; rewrite Z.pow_1_l in E by lia; assert (2 ^ 2 <= 2 ^ k) by (apply Z.pow_le_mono_r; lia); change (2 ^ 2) with 4 in *; lia). lia.
      * split; [|lia]. split; [lia|]. intros c j Hj Hc Ec. destruct (Z.eq_dec j k) as [->|Nj]; [|apply (H c j); [lia|exact Hc|exact Ec]]. apply E. rewrite (Q c Hc Ec). exact Ec.
    + left. split; [reflexivity|]. intros r j Hr Hj E. apply (H r j); [|lia|exact E]. assert (2 ^ j <= n) by (rewrite <- E; apply Z.pow_le_mono_l; lia). destruct (Z_lt_le_dec j k); [lia|]. assert (2 ^ k <= 2 ^ j) by (apply Z.pow_le_mono_r; lia). lia.
  - split; [lia|]. intros c j Hj. lia.
  - rewrite (bit_length_log2 n Hn). assert (X := bits_spec (Z.log2 n + 1)). lia.
Qed.

Lemma is_power_k_ok n k : 1 <= n -> 1 <= k ->
  (exists b, is_power_k n k = Ret (Some (b, k)) /\ 1 <= b /\ b ^ k = n) \/ (is_power_k n k = Ret None /\ forall b, 0 <= b -> b ^ k <> n).
Proof.
  intros Hn Hk. unfold is_power_k. destruct (Z.ltb_spec k 1); [lia|]. destruct (Z.ltb_spec n 1); [lia|]. destruct (Z.eqb_spec k 1) as [->|N1].
  - left. exists n. rewrite Z.pow_1_r. auto.
  - destruct (root_ok k n ltac:(lia) ltac:(lia)) as (r & -> & Hr & Q). cbn [bind]. destruct (Z.eqb_spec (r ^ k) n) as [E|E].
    + left. exists r. split; [reflexivity|]. split; [|exact E]. assert (r <> 0) by (intros ->; rewrite Z.pow_0_l in E; lia). lia.
    + right. split; [reflexivity|]. intros b Hb Eb. apply E. rewrite (Q b Hb Eb). exact Eb.
Qed.

(** ** is_factorial *)
Lemma is_factorial_ok n : exists b, is_factorial n = Ret b /\ (b = true <-> exists m, 1 <= m /\ zprod (zrange 1 (m + 1)) = n).
Proof.
  set (F := fun m => zprod (zrange 1 (m + 1))).
  assert (FS : forall m, 0 <= m -> F (m + 1) = F m * (m + 1)) by (intros m Hm; unfold F; rewrite (zrange_snoc 1 (m + 1)) by lia; rewrite zprod_app; cbn; lia).
  assert (F1 : F 1 = 1) by reflexivity.
  assert (Fmono : forall a b, 1 <= a <= b -> 1 <= F a <= F b). { intros a b. intros [Ha Hb]. replace b with (a + Z.of_nat (Z.to_nat (b - a))) by lia. assert (Hp : forall k, 1 <= F (1 + Z.of_nat k)). { induction k as [|k IH]; [change (1 + Z.of_nat 0) with 1; rewrite F1; lia|]. replace (1 + Z.of_nat (S k)) with (1 + Z.of_nat k + 1) by lia. rewrite FS by lia. nia. } split; [replace a with (1 + Z.of_nat (Z.to_nat (a - 1))) by lia; apply Hp|]. induction (Z.to_nat (b - a)) as [|k IH]; [rewrite Z.add_0_r; lia|]. replace (a + Z.of_nat (S k)) with (a + Z.of_nat k + 1) by lia. rewrite FS by lia. assert (1 <= F (a + Z.of_nat k)) by (replace (a + Z.of_nat k) with (1 + Z.of_nat (Z.to_nat (a - 1) + k)) by lia; apply Hp). nia. }
  unfold is_factorial.
  apply (run_rule (is_factorial_step n) (fun s => 2 <= snd s /\ fst s = F (snd s - 1) /\ 2 ^ (snd s - 2) <= fst s /\ (snd s = 2 \/ F (snd s - 2) < n)) (fun s => bit_length n + 3 - snd s)
    (fun o => exists b, o = Ret b /\ (b = true <-> exists m, 1 <= m /\ F m = n))).
  - intros [p k] (Hk & Ep & Hp & Hl). cbn [fst snd] in *. unfold is_factorial_step. destruct (Z.ltb_spec p n) as [L|L].
    + cbn [fst snd]. assert (0 < 2 ^ (k - 2)) by (apply Z.pow_pos_nonneg; lia). assert (Lk : k - 2 <= Z.log2 n) by (apply Z.log2_le_pow2; lia). rewrite (bit_length_log2 n) by lia. split; [|lia]. split; [lia|]. split; [replace (k + 1 - 1) with (k - 1 + 1) by lia; rewrite FS by lia; rewrite Ep; f_equal; lia|]. split; [replace (k + 1 - 2) with (k - 2 + 1) by lia; rewrite Z.pow_add_r, Z.pow_1_r by lia; nia|]. right. replace (k + 1 - 2) with (k - 1) by lia. lia.
    + exists (p =? n). split; [reflexivity|]. rewrite Z.eqb_eq. split.
      * intros <-. exists (k - 1). split; [lia|congruence].
      * intros (m & Hm & Em). destruct (Z_lt_le_dec m (k - 1)) as [Q|Q].
        -- exfalso. destruct Hl as [->|Hl]; [lia|]. assert (X := Fmono m (k - 2) ltac:(lia)). lia.
        -- assert (X := Fmono (k - 1) m ltac:(lia)). lia.
  - cbn [fst snd]. split; [lia|]. split; [reflexivity|]. split; [cbn; lia|left; reflexivity].
  - cbn [snd]. assert (X := bits_spec (bit_length n + 2)). lia.
Qed.
