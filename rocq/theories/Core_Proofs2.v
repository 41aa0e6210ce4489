(** * Proofs about core.py, continued: bits, logarithms, roots, valuation *)
From Coq Require Import ZArith List Bool Lia Znumtheory Zpow_facts.
From Verif Require Import Base PyFloat_Model Core_Model Core_Spec Core_Proofs.
Import ListNotations.
Open Scope Z_scope.

(** ** bit_count *)

Fixpoint pcp (p : positive) : Z :=
  match p with xH => 1 | xO p => pcp p | xI p => 1 + pcp p end.
Definition pcz (n : Z) : Z := match n with Zpos p => pcp p | _ => 0 end.

Lemma pcz_double n : 0 <= n -> pcz (2 * n) = pcz n.
Proof. destruct n; simpl; auto. Qed.
Lemma pcz_succ_double n : 0 <= n -> pcz (2 * n + 1) = pcz n + 1.
Proof.
  destruct n; intros H; [reflexivity| |lia].
  change (1 + pcp p = pcp p + 1). lia.
Qed.

Lemma land_double a b : Z.land (2 * a) (2 * b) = 2 * Z.land a b.
Proof.
  rewrite <- !(Z.mul_comm _ 2). change 2 with (2 ^ 1). rewrite <- !Z.shiftl_mul_pow2 by lia.
  symmetry. apply Z.shiftl_land.
Qed.

Lemma land_pred_odd a : 0 <= a -> Z.land (2 * a + 1) (2 * a) = 2 * a.
Proof.
  intros H. apply Z.bits_inj'. intros i Hi. rewrite Z.land_spec.
  destruct (Z.eq_dec i 0) as [->|].
  - rewrite Z.testbit_even_0. apply andb_false_r.
  - replace i with (Z.succ (i - 1)) by lia.
    rewrite Z.testbit_odd_succ, Z.testbit_even_succ by lia. apply andb_diag.
Qed.

Lemma land_pred_even a : 0 < a -> Z.land (2 * a) (2 * a - 1) = 2 * Z.land a (a - 1).
Proof.
  intros H. rewrite <- land_double. apply Z.bits_inj'. intros i Hi. rewrite !Z.land_spec.
  replace (2 * a - 1) with (2 * (a - 1) + 1) by lia.
  destruct (Z.eq_dec i 0) as [->|].
  - rewrite Z.testbit_even_0. reflexivity.
  - replace i with (Z.succ (i - 1)) by lia.
    rewrite Z.testbit_odd_succ, !Z.testbit_even_succ by lia. reflexivity.
Qed.

Lemma land_pred_pcz n : 0 < n -> 0 <= Z.land n (n - 1) < n /\
  pcz (Z.land n (n - 1)) = pcz n - 1.
Proof.
  destruct n as [|p|p]; try lia. intros _. induction p as [p IH|p IH|].
  - replace (Z.pos p~1) with (2 * Z.pos p + 1) by lia.
    replace (2 * Z.pos p + 1 - 1) with (2 * Z.pos p) by lia.
    rewrite land_pred_odd, pcz_succ_double, pcz_double by lia. lia.
  - replace (Z.pos p~0) with (2 * Z.pos p) by lia.
    rewrite land_pred_even by lia. rewrite !pcz_double by lia. lia.
  - reflexivity || (simpl; lia).
Qed.

Lemma zrange_shift a b c : zrange (a + c) (b + c) = map (fun x => x + c) (zrange a b).
Proof.
  unfold zrange. rewrite map_map. replace (b + c - (a + c)) with (b - a) by lia.
  apply map_ext. intros; lia.
Qed.

Lemma filter_map {A B} (f : A -> B) (p : B -> bool) l :
  filter p (map f l) = map f (filter (fun x => p (f x)) l).
Proof. induction l as [|x l IH]; simpl; [reflexivity|]. destruct (p (f x)); simpl; rewrite IH; reflexivity. Qed.

Lemma pcz_popcount n : 0 <= n -> pcz n = popcount n.
Proof.
  destruct n as [|p|p]; try lia; [reflexivity|]. intros _.
  assert (G : forall m b, 0 <= m -> 
     length (filter (Z.testbit (2 * m + Z.b2z b)) (zrange 0 (bit_length m + 1))) =
     ((if b then 1 else 0) + length (filter (Z.testbit m) (zrange 0 (bit_length m))))%nat).
  { intros m b Hm. pose proof (bit_length_nonneg m).
    rewrite zrange_cons by lia. cbn [filter].
    assert (E0 : Z.testbit (2 * m + Z.b2z b) 0 = b) by (apply Z.testbit_0_r).
    rewrite E0.
    assert (E : length (filter (Z.testbit (2 * m + Z.b2z b)) (zrange (0 + 1) (bit_length m + 1)))
                = length (filter (Z.testbit m) (zrange 0 (bit_length m)))).
    { rewrite zrange_shift, filter_map, map_length. f_equal. apply filter_ext_in.
      intros x Hx%zrange_In. rewrite Z.add_1_r. apply Z.testbit_succ_r. lia. }
    destruct b; cbn [length]; rewrite E; reflexivity. }
  unfold popcount. rewrite Z.abs_eq by lia.
  induction p as [p IH|p IH|].
  - cbn [pcz pcp] in *. rewrite IH.
    replace (bit_length (Z.pos p~1)) with (bit_length (Z.pos p) + 1).
    + change (Z.pos p~1) with (2 * Z.pos p + Z.b2z true). rewrite (G (Z.pos p) true) by lia. lia.
    + pose proof (bit_length_half (Z.pos p~1) ltac:(lia)) as E.
      replace (Z.pos p~1) with (1 + Z.pos p * 2) in E at 1 by lia.
      rewrite Z.div_add in E by lia. simpl (1 / 2 + _) in E. lia.
  - cbn [pcz pcp] in *. rewrite IH.
    replace (bit_length (Z.pos p~0)) with (bit_length (Z.pos p) + 1).
    + change (Z.pos p~0) with (2 * Z.pos p + Z.b2z false). rewrite (G (Z.pos p) false) by lia. lia.
    + pose proof (bit_length_half (Z.pos p~0) ltac:(lia)) as E.
      replace (Z.pos p~0) with (0 + Z.pos p * 2) in E at 1 by lia.
      rewrite Z.div_add in E by lia. simpl (0 / 2 + _) in E. lia.
  - reflexivity.
Qed.

Lemma bit_count_correct n : bit_count n = Ret (popcount n).
Proof.
  unfold bit_count.
  assert (popcount n = popcount (Z.abs n)) as ->.
  { unfold popcount. rewrite Z.abs_involutive. unfold bit_length. rewrite Z.abs_involutive.
    destruct (Z.eqb_spec n 0), (Z.eqb_spec (Z.abs n) 0); try lia; reflexivity. }
  assert (0 <= Z.abs n) by lia. revert H. generalize (Z.abs n). clear n. intros n Hn.
  rewrite <- pcz_popcount by lia.
  apply (run_rule bit_count_step
    (fun s => let '(m, c) := s in 0 <= m /\ c + pcz m = pcz n)
    (fun s => fst s) (fun r => r = Ret (pcz n))).
  - intros [m c] [Hm E]. unfold bit_count_step. destruct (Z.eqb_spec m 0) as [->|].
    + simpl in E. f_equal. lia.
    + pose proof (land_pred_pcz m ltac:(lia)). simpl fst. lia.
  - split; [lia|reflexivity].
  - apply bits_spec.
Qed.

(** ** integer_log *)

Lemma pow_log_bound b h n : 2 <= b -> 0 <= h -> b ^ h <= n -> h <= Z.log2 n.
Proof.
  intros Hb Hh H.
  assert (2 ^ h <= n) by (etransitivity; [apply Z.pow_le_mono_l|]; eauto; lia).
  rewrite <- (Z.log2_pow2 h) by lia. apply Z.log2_le_mono. assumption.
Qed.

Lemma integer_log_correct b n : 2 <= b -> 1 <= n ->
  exists k, integer_log b n = Ret k /\ 0 <= k /\ b ^ k <= n < b ^ (k + 1).
Proof.
  intros Hb Hn. unfold integer_log.
  destruct (Z.leb_spec b 1); [lia|]. destruct (Z.leb_spec n 0); [lia|].
  destruct (Z.ltb_spec n b).
  { exists 0. rewrite Z.pow_0_r, Z.pow_1_r. repeat split; lia. }
  destruct (Z.eqb_spec b 2) as [->|].
  { exists (Z.log2 n). rewrite bit_length_pos by lia. rewrite Z.add_simpl_r.
    pose proof (Z.log2_nonneg n). split; [reflexivity|]. split; [lia|].
    rewrite Z.add_1_r. apply Z.log2_spec. lia. }
  pose proof (Z.log2_nonneg n) as Hl.
  assert (U : exists lo hi, run (integer_log_up n) (bits (Z.log2 n + 2)) (b, 0, 1) = Ret (lo, hi)
      /\ 0 <= lo < hi /\ hi <= 2 * Z.log2 n + 2 /\ b ^ lo <= n < b ^ hi).
  { apply (run_rule (integer_log_up n)
     (fun s => let '(p, lo, hi) := s in p = b ^ hi /\ 0 <= lo < hi /\ hi <= 2 * Z.log2 n + 2 /\ b ^ lo <= n)
     (fun s => let '(p, lo, hi) := s in Z.max 0 (Z.log2 n + 1 - hi))
     (fun r => exists lo hi, r = Ret (lo, hi) /\ 0 <= lo < hi /\ hi <= 2 * Z.log2 n + 2 /\ b ^ lo <= n < b ^ hi)).
    - intros [[p lo] hi] (-> & Hlo & Hhi & E). unfold integer_log_up.
      destruct (Z.leb_spec (b ^ hi) n) as [Hp|Hp].
      + rewrite Z.shiftl_mul_pow2 by lia. rewrite Z.pow_1_r.
        pose proof (pow_log_bound b hi n ltac:(lia) ltac:(lia) Hp).
        split; [|lia]. split; [rewrite <- Z.pow_add_r by lia; f_equal; lia|].
        repeat split; try lia.
      + exists lo, hi. split; [reflexivity|]. lia.
    - rewrite Z.pow_1_r, Z.pow_0_r. lia.
    - pose proof (bits_spec (Z.log2 n + 2)). lia. }
  destruct U as (lo & hi & -> & Hlo & Hhi & E). cbn [bind].
  apply (run_rule (integer_log_bin b n)
     (fun s => let '(lo, hi) := s in 0 <= lo < hi /\ b ^ lo <= n < b ^ hi)
     (fun s => let '(lo, hi) := s in hi - lo)
     (fun r => exists k, r = Ret k /\ 0 <= k /\ b ^ k <= n < b ^ (k + 1))).
  - clear - Hb Hn. intros [lo hi] [H E]. unfold integer_log_bin.
    destruct (Z.ltb_spec 1 (hi - lo)).
    + rewrite shiftr1. set (mid := (lo + hi) / 2).
      assert (lo < mid < hi) by (unfold mid; pose proof (Z.div_mod (lo + hi) 2 ltac:(lia));
        pose proof (Z.mod_pos_bound (lo + hi) 2 ltac:(lia)); lia).
      destruct (Z.ltb_spec n (b ^ mid)); [lia|].
      destruct (Z.ltb_spec (b ^ mid) n); [lia|].
      exists mid. split; [reflexivity|]. split; [lia|]. split; [lia|].
      apply Z.le_lt_trans with (b ^ mid); [lia|]. apply Z.pow_lt_mono_r; lia.
    + exists lo. split; [reflexivity|]. replace (lo + 1) with hi by lia. lia.
  - lia.
  - pose proof (bits_spec (2 * Z.log2 n + 4)). lia.
Qed.

Lemma integer_log_error b n : b < 2 \/ n < 1 -> integer_log b n = Raise ValueError.
Proof.
  intros H. unfold integer_log. destruct (Z.leb_spec b 1); [reflexivity|].
  destruct (Z.leb_spec n 0); [reflexivity|]. lia.
Qed.

(** ** valuation *)

Lemma valuation_correct p n : 2 <= p -> 1 <= n ->
  exists k, valuation p n = Ret k /\ 0 <= k /\ (p ^ k | n) /\ ~ (p ^ (k + 1) | n).
Proof.
  intros Hp Hn. unfold valuation.
  destruct (Z.eqb_spec p 0); [lia|].
  destruct (Z.eqb_spec (n mod p) 0) as [E0|E0]; cbn [negb orb].
  2:{ exists 0. rewrite Z.pow_0_r, Z.pow_1_r. repeat split; try lia.
      - apply Z.divide_1_l.
      - intros D. apply E0. apply Z.mod_divide; [lia|exact D]. }
  assert (Hd : (p | n)) by (apply Z.mod_divide; [lia|exact E0]).
  assert (p <= n) by (apply Z.divide_pos_le; [lia|exact Hd]).
  destruct (Z.ltb_spec n p); [lia|].
  rewrite !Z.abs_eq by lia.
  pose proof (Z.log2_nonneg n) as Hl.
  assert (B : forall h, 0 <= h -> (p ^ h | n) -> h <= Z.log2 n).
  { intros h Hh D. apply (pow_log_bound p); try lia. apply Z.divide_pos_le; [lia|exact D]. }
  assert (U : exists lo hi, run (valuation_up n) (bits (Z.log2 n + 2)) (p, 0, 1) = Ret (lo, hi)
      /\ 0 <= lo < hi /\ hi <= 2 * Z.log2 n + 2 /\ (p ^ lo | n) /\ ~ (p ^ hi | n)).
  { apply (run_rule (valuation_up n)
     (fun s => let '(pk, lo, hi) := s in pk = p ^ hi /\ 0 <= lo < hi /\ hi <= 2 * Z.log2 n + 2 /\ (p ^ lo | n))
     (fun s => let '(pk, lo, hi) := s in Z.max 0 (Z.log2 n + 1 - hi))
     (fun r => exists lo hi, r = Ret (lo, hi) /\ 0 <= lo < hi /\ hi <= 2 * Z.log2 n + 2 /\ (p ^ lo | n) /\ ~ (p ^ hi | n))).
    - intros [[pk lo] hi] (-> & Hlo & Hhi & E). unfold valuation_up.
      assert (p ^ hi <> 0) by (apply Z.pow_nonzero; lia).
      destruct (Z.eqb_spec (n mod p ^ hi) 0) as [Hpk|Hpk].
      + apply Z.mod_divide in Hpk; [|lia].
        rewrite Z.shiftl_mul_pow2 by lia. rewrite Z.pow_1_r.
        pose proof (B hi ltac:(lia) Hpk).
        split; [|lia]. split; [rewrite <- Z.pow_add_r by lia; f_equal; lia|].
        repeat split; try lia. exact Hpk.
      + exists lo, hi. split; [reflexivity|]. repeat split; try lia; try assumption.
        intros D. apply Hpk. apply Z.mod_divide; assumption.
    - rewrite Z.pow_1_r, Z.pow_0_r. repeat split; try lia. apply Z.divide_1_l.
    - pose proof (bits_spec (Z.log2 n + 2)). lia. }
  destruct U as (lo & hi & -> & Hlo & Hhi & E1 & E2). cbn [bind].
  apply (run_rule (valuation_bin p n)
     (fun s => let '(lo, hi) := s in 0 <= lo < hi /\ (p ^ lo | n) /\ ~ (p ^ hi | n))
     (fun s => let '(lo, hi) := s in hi - lo)
     (fun r => exists k, r = Ret k /\ 0 <= k /\ (p ^ k | n) /\ ~ (p ^ (k + 1) | n))).
  - clear - Hp Hn. intros [lo hi] (H & E1 & E2). unfold valuation_bin.
    destruct (Z.ltb_spec 1 (hi - lo)).
    + rewrite shiftr1. set (mid := (lo + hi) / 2).
      assert (lo < mid < hi) by (unfold mid; pose proof (Z.div_mod (lo + hi) 2 ltac:(lia));
        pose proof (Z.mod_pos_bound (lo + hi) 2 ltac:(lia)); lia).
      assert (p ^ mid <> 0) by (apply Z.pow_nonzero; lia).
      destruct (Z.eqb_spec (n mod p ^ mid) 0) as [D|D].
      * apply Z.mod_divide in D; [|lia]. repeat split; try lia; assumption.
      * repeat split; try lia; try assumption. intros D'. apply D. apply Z.mod_divide; assumption.
    + exists lo. split; [reflexivity|]. replace (lo + 1) with hi by lia. repeat split; try lia; assumption.
  - auto.
  - pose proof (bits_spec (2 * Z.log2 n + 4)). lia.
Qed.

Lemma valuation_nonpositive p n : 2 <= p -> n <= 0 -> valuation p n = Ret 0.
Proof.
  intros Hp Hn. unfold valuation. destruct (Z.eqb_spec p 0); [lia|].
  destruct (Z.ltb_spec n p); [|lia]. rewrite orb_true_r. reflexivity.
Qed.

Lemma valuation_one n : 1 <= n -> valuation 1 n = Diverge.
Proof.
  intros Hn. unfold valuation. simpl (1 =? 0). rewrite Z.mod_1_r. simpl.
  destruct (Z.ltb_spec n 1); [lia|]. simpl.
  rewrite (run_never _ (fun s => fst (fst s) = 1)); auto.
  intros [[pk lo] hi] E. simpl in E. subst pk. unfold valuation_up. rewrite Z.mod_1_r. simpl.
  eexists. split; reflexivity.
Qed.

(** ** integer_sqrt, Newton branch *)

Lemma newton_sqrt n x0 : 0 < n -> Z.sqrt n <= x0 ->
  0 < x0 -> run (isqrt_step n) (bits x0) x0 = Ret (Z.sqrt n).
Proof.
  intros Hn H0 Hx0.
  pose proof (Z.sqrt_spec n ltac:(lia)) as Hs. cbv zeta in Hs.
  assert (0 < Z.sqrt n) by (apply Z.sqrt_pos; lia).
  set (s := Z.sqrt n) in *.
  apply (run_rule (isqrt_step n) (fun x => s <= x) (fun x => x) (fun r => r = Ret s)).
  - intros x Hx. unfold isqrt_step.
    pose proof (Z.div_mod n x ltac:(lia)) as D1.
    pose proof (Z.mod_pos_bound n x ltac:(lia)) as D2.
    set (q := n / x) in *.
    pose proof (Z.div_mod (x + q) 2 ltac:(lia)) as D3.
    pose proof (Z.mod_pos_bound (x + q) 2 ltac:(lia)) as D4.
    set (y := (x + q) / 2) in *.
    assert (2 * s <= x + q).
    { enough (2 * s - x <= q) by lia.
      apply Z.div_le_lower_bound; [lia|]. nia. }
    destruct (Z.leb_spec x y).
    + f_equal. assert (x <= q) by lia. assert (x * x <= n) by nia. nia.
    + lia.
  - assumption.
  - apply bits_spec.
Qed.

Lemma integer_sqrt_big n : 2 ^ 60 < n -> integer_sqrt n = Ret (Z.sqrt n).
Proof.
  intros Hn. assert (0 < 2 ^ 60) by reflexivity. unfold integer_sqrt.
  destruct (Z.ltb_spec n 0); [lia|].
  destruct (Z.eqb_spec n 0); [lia|]. destruct (Z.eqb_spec n 1); [lia|]. cbn [orb].
  destruct (Z.leb_spec n (2 ^ 60)); [lia|].
  pose proof (bit_length_nonneg n).
  assert (0 <= bit_length n / 2) by (apply Z.div_pos; lia).
  rewrite Z.shiftl_mul_pow2, Z.mul_1_l by lia.
  assert (0 < 2 ^ (bit_length n / 2 + 1)) by (apply Z.pow_pos_nonneg; lia).
  apply newton_sqrt; try lia.
  pose proof (bit_length_spec n ltac:(lia)) as Hb.
  assert (n < 2 ^ (bit_length n / 2 + 1) * 2 ^ (bit_length n / 2 + 1)).
  { rewrite <- Z.pow_add_r by lia.
    eapply Z.lt_le_trans; [exact Hb|]. apply Z.pow_le_mono_r; [lia|].
    pose proof (Z.div_mod (bit_length n) 2 ltac:(lia)).
    pose proof (Z.mod_pos_bound (bit_length n) 2 ltac:(lia)). lia. }
  pose proof (Z.sqrt_spec n ltac:(lia)) as Hs. cbv zeta in Hs. nia.
Qed.

(** ** integer_nth_root, Halley iteration *)

(** Weighted AM-GM: [x^(n+1) + n r^(n+1) >= (n+1) x r^n]. *)
Lemma amgm x r (n : nat) : 0 <= r -> 0 <= x ->
  x ^ (Z.of_nat n + 1) + Z.of_nat n * r ^ (Z.of_nat n + 1) >= (Z.of_nat n + 1) * x * r ^ Z.of_nat n.
Proof.
  intros Hr Hx. induction n as [|n IH].
  - change (Z.of_nat 0) with 0. rewrite Z.pow_0_r, Z.pow_1_r. lia.
  - rewrite Nat2Z.inj_succ. unfold Z.succ. set (k := Z.of_nat n) in *.
    assert (0 <= k) by (unfold k; lia).
    rewrite (Z.pow_add_r x (k + 1)), (Z.pow_add_r r (k + 1)) by lia.
    rewrite !Z.pow_1_r.
    assert (E : r ^ (k + 1) = r ^ k * r) by (rewrite Z.pow_add_r, Z.pow_1_r by lia; reflexivity).
    assert (0 <= r ^ k) by (apply Z.pow_nonneg; lia).
    rewrite E in *. set (R := r ^ k) in *. set (X := x ^ (k + 1)) in *.
    (* x*IH : X x + k R r x >= (k+1) x x R ; need X x + (k+1) R r r >= (k+2) x R r *)
    assert (x * (X + k * (R * r)) >= x * ((k + 1) * x * R)) by nia.
    assert (0 <= ((k + 1) * R) * ((x - r) * (x - r)))
      by (apply Z.mul_nonneg_nonneg; [apply Z.mul_nonneg_nonneg; lia|apply Z.square_nonneg]).
    nia.
Qed.

Lemma halley_ineq x r (n : nat) : (1 <= n)%nat -> 0 <= r <= x ->
  let k := Z.of_nat n in
  r * ((k + 1) * x ^ k + (k - 1) * r ^ k) <= x * ((k - 1) * x ^ k + (k + 1) * r ^ k).
Proof.
  intros Hn Hx. induction n as [|n IH]; [lia|]. destruct n as [|n].
  - cbv zeta. change (Z.of_nat 1) with 1. rewrite !Z.pow_1_r. nia.
  - specialize (IH ltac:(lia)). cbv zeta in *.
    rewrite (Nat2Z.inj_succ (S n)). unfold Z.succ. set (k := Z.of_nat (S n)) in *.
    assert (1 <= k) by (unfold k; lia).
    pose proof (amgm x r (S n) ltac:(lia) ltac:(lia)) as A. fold k in A.
    rewrite (Z.pow_add_r x), (Z.pow_add_r r), !Z.pow_1_r in * by lia.
    assert (0 <= r ^ k) by (apply Z.pow_nonneg; lia).
    assert (0 <= x ^ k) by (apply Z.pow_nonneg; lia).
    set (X := x ^ k) in *. set (R := r ^ k) in *.
    assert (I1 : x * (r * ((k + 1) * X + (k - 1) * R)) <= x * (x * ((k - 1) * X + (k + 1) * R)))
      by (apply Z.mul_le_mono_nonneg_l; lia).
    assert (I2 : 0 <= (x - r) * (X * x + k * (R * r) - (k + 1) * x * R)) by (apply Z.mul_nonneg_nonneg; lia).
    nia.
Qed.

Lemma is_floor_root_unique n m r r' : 1 <= n ->
  is_floor_root n m r -> is_floor_root n m r' -> r = r'.
Proof.
  intros Hn [H1 H2] [H3 H4].
  assert (A : forall a b, 0 <= a -> 0 <= b -> a ^ n < b ^ n -> a < b).
  { intros a b Ha Hb H. destruct (Z_lt_le_dec a b); [assumption|].
    exfalso. pose proof (Z.pow_le_mono_l b a n ltac:(lia)). lia. }
  assert (r < r' + 1) by (apply A; lia). assert (r' < r + 1) by (apply A; lia). lia.
Qed.

Lemma floor_root_exists n m : 1 <= n -> 0 <= m -> exists r, is_floor_root n m r.
Proof.
  intros Hn Hm.
  assert (G : forall k : nat, exists r, 0 <= r /\ r ^ n <= m /\ (m < (r + 1) ^ n \/ Z.of_nat k <= r)).
  { induction k as [|k (r & Hr & H1 & H2)].
    - exists 0. rewrite Z.pow_0_l by lia. lia.
    - destruct (Z_lt_le_dec m ((r + 1) ^ n)); [exists r; auto|].
      exists (r + 1). repeat split; try lia. }
  destruct (G (Z.to_nat (m + 1))) as (r & Hr & H1 & [H2|H2]).
  - exists r. repeat split; lia.
  - exfalso. assert (r <= r ^ n).
    { rewrite <- (Z.pow_1_r r) at 1. apply Z.pow_le_mono_r; lia. }
    lia.
Qed.

Lemma halley_root n m r x0 : 3 <= n -> 0 < m -> is_floor_root n m r -> r <= x0 -> 1 <= r ->
  run (nth_root_step n m) (bits x0) x0 = Ret r.
Proof.
  intros Hn Hm [Hr [H1 H2]] Hx0 Hr1.
  apply (run_rule (nth_root_step n m) (fun x => r <= x) (fun x => x) (fun z => z = Ret r)).
  - intros x Hx. unfold nth_root_step.
    assert (HX : 0 < x ^ n) by (apply Z.pow_pos_nonneg; lia).
    set (X := x ^ n) in *.
    assert (Hden : 0 < (n - 1) * X + (n + 1) * m + 2 * X - 2 * m) by nia.
    destruct (Z_lt_le_dec m X) as [HmX|HmX].
    + (* above the root *)
      assert (Hlt : x * ((n - 1) * X + (n + 1) * m) / ((n - 1) * X + (n + 1) * m + 2 * X - 2 * m) < x).
      { apply Z.div_lt_upper_bound; [lia|]. nia. }
      assert (Hge : r <= x * ((n - 1) * X + (n + 1) * m) / ((n - 1) * X + (n + 1) * m + 2 * X - 2 * m)).
      { apply Z.div_le_lower_bound; [lia|].
        pose proof (halley_ineq x r (Z.to_nat n) ltac:(lia) ltac:(lia)) as Hh. cbv zeta in Hh.
        rewrite Z2Nat.id in Hh by lia. fold X in Hh.
        assert (0 <= (x * (n + 1) - r * (n - 1)) * (m - r ^ n)) by (apply Z.mul_nonneg_nonneg; nia).
        nia. }
      destruct (Z.leb_spec x (x * ((n - 1) * X + (n + 1) * m) / ((n - 1) * X + (n + 1) * m + 2 * X - 2 * m))); lia.
    + (* at the root *)
      assert (x = r).
      { destruct (Z.eq_dec x r); [assumption|]. exfalso.
        assert ((r + 1) ^ n <= x ^ n) by (apply Z.pow_le_mono_l; lia). fold X in H. lia. }
      assert (Hge : x <= x * ((n - 1) * X + (n + 1) * m) / ((n - 1) * X + (n + 1) * m + 2 * X - 2 * m)).
      { apply Z.div_le_lower_bound; [lia|]. nia. }
      destruct (Z.leb_spec x (x * ((n - 1) * X + (n + 1) * m) / ((n - 1) * X + (n + 1) * m + 2 * X - 2 * m))); [congruence|lia].
  - assumption.
  - apply bits_spec.
Qed.

Lemma integer_nth_root_correct n m : 1 <= n -> n <> 2 -> 0 <= m ->
  exists r, integer_nth_root n m = Ret r /\ is_floor_root n m r.
Proof.
  intros Hn Hn2 Hm. unfold integer_nth_root.
  destruct (Z.ltb_spec m 0); [lia|]. destruct (Z.ltb_spec n 1); [lia|].
  destruct (Z.eqb_spec n 1) as [->|].
  { exists m. split; [reflexivity|]. split; [lia|]. rewrite !Z.pow_1_r. lia. }
  destruct (Z.eqb_spec n 2) as [->|]; [lia|].
  assert (H2n : 2 ^ 2 < 2 ^ n) by (apply Z.pow_lt_mono_r; lia).
  destruct (Z.eqb_spec m 0) as [->|].
  { exists 0. split; [reflexivity|]. split; [lia|]. rewrite Z.pow_0_l, Z.pow_1_l by lia. lia. }
  destruct (Z.eqb_spec m 1) as [->|].
  { exists 1. split; [reflexivity|]. split; [lia|]. rewrite Z.pow_1_l by lia. simpl (1 + 1). lia. }
  cbn [orb].
  pose proof (bit_length_spec m Hm) as Hb. pose proof (bit_length_nonneg m) as Hb0.
  destruct (Z.leb_spec (bit_length m) n).
  { exists 1. split; [reflexivity|]. split; [lia|]. rewrite Z.pow_1_l by lia. split; [lia|].
    eapply Z.lt_le_trans; [exact Hb|]. simpl (1 + 1). apply Z.pow_le_mono_r; lia. }
  destruct (floor_root_exists n m Hn Hm) as [r Hr]. exists r. split; [|exact Hr].
  assert (0 <= bit_length m / n) by (apply Z.div_pos; lia).
  rewrite Z.shiftl_mul_pow2, Z.mul_1_l by lia.
  destruct Hr as [Hr0 [Hr1 Hr2]].
  apply halley_root; try lia; [repeat split; assumption| |].
  - destruct (Z_le_gt_dec r (2 ^ (bit_length m / n + 1))) as [|Hgt]; [assumption|exfalso].
    assert (Hp : (2 ^ (bit_length m / n + 1)) ^ n <= r ^ n) by (apply Z.pow_le_mono_l; split; [apply Z.pow_nonneg; lia|lia]).
    rewrite <- Z.pow_mul_r in Hp by lia.
    assert (2 ^ bit_length m <= 2 ^ ((bit_length m / n + 1) * n)).
    { apply Z.pow_le_mono_r; [lia|].
      pose proof (Z.div_mod (bit_length m) n ltac:(lia)).
      pose proof (Z.mod_pos_bound (bit_length m) n ltac:(lia)). nia. }
    lia.
  - destruct (Z.eq_dec r 0) as [->|]; [|lia]. exfalso. simpl (0 + 1) in Hr2. rewrite Z.pow_1_l in Hr2; lia.
Qed.

Lemma integer_nth_root_error n m : m < 0 \/ n < 1 -> integer_nth_root n m = Raise ValueError.
Proof.
  intros H. unfold integer_nth_root. destruct (Z.ltb_spec m 0); [reflexivity|].
  destruct (Z.ltb_spec n 1); [reflexivity|]. lia.
Qed.
