(** * Proofs about core.py *)
From Coq Require Import ZArith List Bool Lia Znumtheory Zpow_facts.
From Verif Require Import Base PyFloat_Model Core_Model.
Import ListNotations.
Open Scope Z_scope.

(** ** gcd, lcm *)

Lemma gcd_correct x y : gcd x y = Ret (Z.gcd x y).
Proof.
  unfold gcd.
  assert (G : forall x y, 0 <= y -> 0 <= x -> run gcd_step (bits y) (x, y) = Ret (Z.gcd x y)).
  { clear x y. intros x y Hy Hx.
    apply (run_rule gcd_step
             (fun s => 0 <= fst s /\ 0 <= snd s /\ Z.gcd (fst s) (snd s) = Z.gcd x y)
             (fun s => snd s) (fun r => r = Ret (Z.gcd x y))).
    - intros [a b] (Ha & Hb & E). simpl in *. unfold gcd_step.
      destruct (Z.eqb_spec b 0) as [->|Hb0].
      + rewrite Z.gcd_0_r, Z.abs_eq in E by lia. congruence.
      + simpl. pose proof (Z.mod_pos_bound a b ltac:(lia)).
        repeat split; try lia.
        rewrite (Z.gcd_comm b), Z.gcd_mod by lia. rewrite Z.gcd_comm. exact E.
    - simpl; auto.
    - simpl. apply bits_spec. }
  destruct (Z.abs x <? Z.abs y); rewrite G by lia; f_equal.
  - rewrite Z.gcd_comm, Z.gcd_abs_l, Z.gcd_abs_r. reflexivity.
  - rewrite Z.gcd_abs_l, Z.gcd_abs_r. reflexivity.
Qed.

Lemma gcd_list_correct a b rest :
  gcd_list (a :: b :: rest) = Ret (fold_right Z.gcd 0 (a :: b :: rest)).
Proof.
  unfold gcd_list. rewrite gcd_correct. simpl.
  rewrite (foldM_ret _ (fun p x => Z.gcd p x)) by (intros; apply gcd_correct).
  f_equal. rewrite Z.gcd_assoc.
  generalize (Z.gcd_nonneg a b). generalize (Z.gcd a b). clear. intros g Hg.
  revert g Hg. induction rest as [|x rest IH]; intros g Hg; simpl.
  - rewrite Z.gcd_0_r. lia.
  - rewrite IH by apply Z.gcd_nonneg. rewrite Z.gcd_assoc. reflexivity.
Qed.

Lemma lcm_correct x y : lcm x y = Ret (Z.lcm x y).
Proof.
  unfold lcm. destruct (Z.eqb_spec (x * y) 0) as [E|E].
  - f_equal. apply Z.mul_eq_0 in E as [-> | ->]; rewrite ?Z.lcm_0_l, ?Z.lcm_0_r; reflexivity.
  - rewrite gcd_correct. unfold bind, pydiv.
    rewrite Z.gcd_abs_l, Z.gcd_abs_r.
    assert (x <> 0 /\ y <> 0) as [Hx Hy] by (split; intros ->; apply E; ring).
    assert (Z.gcd x y <> 0) by (rewrite Z.gcd_eq_0; tauto).
    destruct (Z.eqb_spec (Z.gcd x y) 0); [contradiction|]. f_equal.
    unfold Z.lcm. rewrite Z.abs_mul.
    destruct (Z.gcd_divide_r x y) as [q Hq].
    pose proof (Z.gcd_nonneg x y).
    remember (Z.gcd x y) as g.
    rewrite Hq at 1 2. rewrite Z.abs_mul, (Z.abs_eq g) by lia.
    rewrite Z.mul_assoc, Z.div_mul by lia. rewrite Z.div_mul by lia. reflexivity.
Qed.

Lemma lcm_list_correct a b rest :
  lcm_list (a :: b :: rest) = Ret (fold_right Z.lcm 1 (a :: b :: rest)).
Proof.
  unfold lcm_list. rewrite lcm_correct. simpl.
  rewrite (foldM_ret _ (fun p x => Z.lcm p x)) by (intros; apply lcm_correct).
  f_equal. rewrite Z.lcm_assoc.
  generalize (Z.lcm_nonneg a b). generalize (Z.lcm a b). clear. intros g Hg.
  revert g Hg. induction rest as [|x rest IH]; intros g Hg; simpl.
  - rewrite Z.lcm_1_r. lia.
  - rewrite IH by apply Z.lcm_nonneg. rewrite Z.lcm_assoc. reflexivity.
Qed.

(** The fold specifications above, as universal properties. *)
Lemma fold_gcd_divide L x : In x L -> (fold_right Z.gcd 0 L | x).
Proof.
  induction L as [|y L IH]; simpl; [tauto|]. intros [->|H].
  - apply Z.gcd_divide_l.
  - etransitivity; [apply Z.gcd_divide_r|auto].
Qed.
Lemma fold_gcd_greatest L d : (forall x, In x L -> (d | x)) -> (d | fold_right Z.gcd 0 L).
Proof.
  induction L as [|y L IH]; simpl; intros H; [apply Z.divide_0_r|].
  apply Z.gcd_greatest; auto.
Qed.
Lemma fold_lcm_divide L x : In x L -> (x | fold_right Z.lcm 1 L).
Proof.
  induction L as [|y L IH]; simpl; [tauto|]. intros [->|H].
  - apply Z.divide_lcm_l.
  - etransitivity; [eauto|apply Z.divide_lcm_r].
Qed.
Lemma fold_lcm_least L d : (forall x, In x L -> (x | d)) -> (fold_right Z.lcm 1 L | d).
Proof.
  induction L as [|y L IH]; simpl; intros H; [apply Z.divide_1_l|].
  apply Z.lcm_least; auto.
Qed.

Lemma ext_gcd_correct x y : exists a b, ext_gcd x y = Ret (a, b, Z.gcd x y) /\
    a * x + b * y = Z.gcd x y.
Proof.
  unfold ext_gcd.
  assert (G : forall x y, 0 <= y -> 0 <= x -> exists a b,
    run ext_gcd_step (bits (x + y + 1)) (1, 0, x, 0, 1, y) = Ret (a, b, Z.gcd x y) /\
    a * x + b * y = Z.gcd x y).
  { clear x y. intros x y Hy Hx.
    apply (run_rule ext_gcd_step
      (fun s => let '(a, b, d, u, v, w) := s in
         0 <= d /\ 0 <= w /\ a * x + b * y = d /\ u * x + v * y = w /\ Z.gcd d w = Z.gcd x y)
      (fun s => let '(a, b, d, u, v, w) := s in w)
      (fun r => exists a b, r = Ret (a, b, Z.gcd x y) /\ a * x + b * y = Z.gcd x y)).
    - intros [[[[[a b] d] u] v] w] (Hd & Hw & E1 & E2 & E3). unfold ext_gcd_step.
      destruct (Z.eqb_spec w 0) as [->|Hw0].
      + rewrite Z.gcd_0_r, Z.abs_eq in E3 by lia. exists a, b. rewrite <- E3. auto.
      + pose proof (Z.mod_pos_bound d w ltac:(lia)).
        pose proof (Z.mod_eq d w Hw0).
        replace (d - d / w * w) with (d mod w) by lia.
        repeat split; try lia.
        rewrite (Z.gcd_comm w), Z.gcd_mod by lia. rewrite Z.gcd_comm. exact E3.
    - repeat split; lia.
    - pose proof (bits_spec (x + y + 1)). lia. }
  assert (S : forall z, (if 0 <=? z then 1 else -1) * Z.abs z = z).
  { intros z. destruct (Z.leb_spec 0 z); lia. }
  destruct (x <? y).
  - destruct (G (Z.abs y) (Z.abs x) ltac:(lia) ltac:(lia)) as (a & b & -> & E).
    cbn [bind].
    rewrite Z.gcd_abs_l, Z.gcd_abs_r, Z.gcd_comm in *.
    do 2 eexists. split; [reflexivity|].
    pose proof (S x). pose proof (S y).
    destruct (0 <=? x), (0 <=? y); nia.
  - destruct (G (Z.abs x) (Z.abs y) ltac:(lia) ltac:(lia)) as (a & b & -> & E).
    cbn [bind].
    rewrite Z.gcd_abs_l, Z.gcd_abs_r in *.
    do 2 eexists. split; [reflexivity|].
    pose proof (S x). pose proof (S y).
    destruct (0 <=? x), (0 <=? y); nia.
Qed.

(** ** power_mod *)

Lemma land1 k : Z.land k 1 = k mod 2.
Proof. change 1 with (Z.ones 1). rewrite Z.land_ones by lia. reflexivity. Qed.

Lemma shiftr1 k : Z.shiftr k 1 = k / 2.
Proof. rewrite Z.shiftr_div_pow2 by lia. reflexivity. Qed.

Lemma bit_length_pos n : 0 < n -> bit_length n = Z.log2 n + 1.
Proof. intros H. unfold bit_length. destruct (Z.eqb_spec n 0); [lia|]. rewrite Z.abs_eq by lia. reflexivity. Qed.

Lemma bit_length_nonneg n : 0 <= bit_length n.
Proof. unfold bit_length. destruct (n =? 0); [lia|]. pose proof (Z.log2_nonneg (Z.abs n)). lia. Qed.

Lemma bit_length_half n : 0 < n -> bit_length (n / 2) = bit_length n - 1.
Proof.
  intros H. rewrite (bit_length_pos n) by lia.
  destruct (Z_le_gt_dec n 1) as [H1|H1].
  - replace n with 1 by lia. reflexivity.
  - assert (1 <= n / 2) by (apply Z.div_le_lower_bound; lia).
    rewrite bit_length_pos by lia.
    enough (Z.log2 n = Z.succ (Z.log2 (n / 2))) by lia.
    pose proof (Z.div_mod n 2 ltac:(lia)) as E.
    pose proof (Z.mod_pos_bound n 2 ltac:(lia)).
    rewrite E at 1. destruct (Z.eq_dec (n mod 2) 0) as [->|].
    + rewrite Z.add_0_r. apply Z.log2_double. lia.
    + replace (n mod 2) with 1 by lia. apply Z.log2_succ_double. lia.
Qed.

Lemma bit_length_spec n : 0 <= n -> n < 2 ^ bit_length n.
Proof.
  intros H. unfold bit_length. destruct (Z.eqb_spec n 0) as [->|]; [reflexivity|].
  rewrite Z.abs_eq by lia. apply Z.log2_spec. lia.
Qed.

Lemma bit_length_lower n : 0 < n -> 2 ^ (bit_length n - 1) <= n.
Proof.
  intros H. rewrite bit_length_pos by lia. replace (Z.log2 n + 1 - 1) with (Z.log2 n) by lia.
  apply Z.log2_spec. lia.
Qed.

Lemma power_mod_loop a k m : 0 <= k -> 1 <= m ->
  run (power_mod_step m) (bits (bit_length k)) (k, a mod m, 1 mod m) = Ret (a ^ k mod m).
Proof.
  intros Hk Hm.
  apply (run_rule (power_mod_step m)
    (fun s => let '(k', a', t) := s in
       0 <= k' /\ (t * a' ^ k') mod m = a ^ k mod m /\ t = t mod m)
    (fun s => let '(k', a', t) := s in bit_length k')
    (fun r => r = Ret (a ^ k mod m))).
  - intros [[k' a'] t] (Hk' & E & Et). unfold power_mod_step.
    destruct (Z.eqb_spec k' 0) as [->|Hk0].
    + rewrite Z.pow_0_r, Z.mul_1_r in E. congruence.
    + rewrite land1, shiftr1, bit_length_half by lia.
      assert (0 <= k' / 2) by (apply Z.div_pos; lia).
      pose proof (Z.div_mod k' 2 ltac:(lia)) as D.
      pose proof (Z.mod_pos_bound k' 2 ltac:(lia)).
      assert (P : (a' * a' mod m) ^ (k' / 2) mod m = a' ^ (2 * (k' / 2)) mod m).
      { rewrite <- Zpower_mod by lia. f_equal. rewrite Z.pow_mul_r by lia. f_equal. ring. }
      split; [|pose proof (bit_length_half k' ltac:(lia)); pose proof (bit_length_nonneg (k'/2)); lia].
      split; [lia|].
      destruct (Z.eqb_spec (k' mod 2) 0) as [E0|E1].
      * split; [|exact Et]. rewrite <- E.
        rewrite <- Z.mul_mod_idemp_r, P, Z.mul_mod_idemp_r by lia.
        do 3 f_equal. lia.
      * split; [|rewrite Z.mod_mod; lia]. rewrite <- E.
        rewrite Z.mul_mod_idemp_l by lia.
        rewrite <- Z.mul_mod_idemp_r, P, Z.mul_mod_idemp_r by lia.
        assert (a' ^ k' = a' ^ (2 * (k' / 2)) * a') as ->.
        { replace k' with (2 * (k' / 2) + 1) at 1 by lia.
          rewrite Z.pow_add_r by lia. ring. }
        f_equal. ring.
  - split; [lia|]. split; [|rewrite Z.mod_mod; lia].
    rewrite <- Z.mul_mod_idemp_r by lia.
    rewrite <- Zpower_mod by lia.
    rewrite Z.mul_mod_idemp_l, Z.mul_mod_idemp_r by lia. f_equal. ring.
  - apply bits_spec.
Qed.

Lemma power_mod_correct a k m : 0 <= a -> 0 <= k -> 1 <= m ->
  (k <> 0 \/ m = 1 \/ a mod m <> 0) ->
  power_mod a k m = Ret (a ^ k mod m).
Proof.
  intros Ha Hk Hm Hg. unfold power_mod.
  destruct (Z.ltb_spec a 0); [lia|]. destruct (Z.ltb_spec k 0); [lia|].
  destruct (Z.ltb_spec m 1); [lia|].
  destruct (Z.eqb_spec (a mod m) 0) as [E|E].
  - f_equal. destruct (Z.eq_dec m 1) as [->|Hm1]; [rewrite Z.mod_1_r; reflexivity|].
    assert (k <> 0) by tauto.
    rewrite Zpower_mod by lia. rewrite E, Z.pow_0_l by lia. rewrite Z.mod_0_l; lia.
  - assert (m <> 1) by (intros ->; rewrite Z.mod_1_r in E; lia).
    destruct (Z.eqb_spec k 0) as [->|Hk0].
    + rewrite Z.pow_0_r, Z.mod_1_l by lia. reflexivity.
    + rewrite <- power_mod_loop by lia. rewrite (Z.mod_1_l m) by lia. reflexivity.
Qed.

Lemma power_mod_zero_exponent a m : 0 <= a -> 1 < m -> (m | a) ->
  power_mod a 0 m = Ret 0.
Proof.
  intros Ha Hm Hd. unfold power_mod.
  destruct (Z.ltb_spec a 0); [lia|].
  destruct (Z.ltb_spec m 1); [lia|].
  apply Z.mod_divide in Hd; [|lia]. rewrite Hd. reflexivity.
Qed.

Lemma power_mod_error a k m : a < 0 \/ k < 0 \/ m < 1 ->
  power_mod a k m = Raise ValueError.
Proof.
  intros H. unfold power_mod.
  destruct (Z.ltb_spec a 0); [reflexivity|]. destruct (Z.ltb_spec k 0); [reflexivity|].
  destruct (Z.ltb_spec m 1); [reflexivity|]. lia.
Qed.

(** ** inverse_mod *)

Lemma inverse_mod_correct a m : 2 <= m -> Z.gcd a m = 1 ->
  exists x, inverse_mod a m = Ret x /\ 0 <= x < m /\ (a * x) mod m = 1.
Proof.
  intros Hm Hg. unfold inverse_mod. destruct (Z.ltb_spec m 2); [lia|].
  destruct (ext_gcd_correct a m) as (u & v & -> & E). rewrite Hg in *. cbn [bind].
  simpl (negb _). cbv iota.
  exists (u mod m). split; [reflexivity|]. split; [apply Z.mod_pos_bound; lia|].
  rewrite Z.mul_mod_idemp_r by lia.
  replace (a * u) with (1 + (- v) * m) by lia.
  rewrite Z.mod_add by lia. apply Z.mod_1_l. lia.
Qed.

Lemma inverse_mod_error a m : m < 2 \/ Z.gcd a m <> 1 -> inverse_mod a m = Raise ValueError.
Proof.
  intros H. unfold inverse_mod. destruct (Z.ltb_spec m 2); [reflexivity|].
  destruct (ext_gcd_correct a m) as (u & v & -> & E). cbn [bind].
  destruct (Z.eqb_spec (Z.gcd a m) 1); [lia|reflexivity].
Qed.

Lemma inverse_unique a m x y : 0 <= x < m -> 0 <= y < m ->
  (a * x) mod m = 1 -> (a * y) mod m = 1 -> x = y.
Proof.
  intros Hx Hy Ex Ey.
  assert (m <> 1) by (intros ->; rewrite Z.mod_1_r in Ex; lia).
  rewrite <- (Z.mod_small x m), <- (Z.mod_small y m) by lia.
  replace x with (x * 1) at 1 by ring. rewrite <- Ey.
  rewrite Z.mul_mod_idemp_r by lia.
  replace (x * (a * y)) with ((a * x) * y) by ring.
  rewrite <- Z.mul_mod_idemp_l, Ex by lia. f_equal. lia.
Qed.
