(** * The method of Lagarias, Miller and Odlyzko: results *)
From Coq Require Import ZArith List Bool Lia Znumtheory.
From Verif Require Import Base Py Dict Sums Core_Model Core_Props Primes_Spec Primes_Props Sieves_Model PrimeList_Data PrimeList_Proofs Bit_Model Pell_Model PC_Model PC_Spec PC_Proofs PC_Proofs2 PC_Proofs3 PC_Proofs5 PC_Proofs6 PC_Proofs8 PC_Proofs11 PC_Proofs12 PC_Proofs13.
Import ListNotations.
Open Scope Z_scope.

Lemma nth_repeat_1 k n : (k < n)%nat -> nth k (repeat 1 n) 0 = 1.
Proof. revert k. induction n as [|n IH]; intros k H; [lia|]. destruct k as [|k]; [reflexivity|]. cbn. apply IH. lia. Qed.
Lemma lmo_ok x : exists k, lmo x = Ret k /\ prime_count_is x k.
Proof.
  unfold lmo. destruct (Z.leb_spec x 1) as [L1|L1]; [exists 0; split; [reflexivity|apply no_primes, L1]|].
  destruct (Z.leb_spec x (last PRIME_LIST 0)) as [L2|L2]; [eexists; split; [reflexivity|apply table_pi, L2]|]. rewrite PRIME_LIST_last in L2.
  assert (E2 : x ^ 2 = x * x) by ring.
  destruct (C04_integer_nth_root 3 (x ^ 2) ltac:(lia) ltac:(lia) ltac:(lia)) as (root & -> & Hr0 & Hr). cbn [bind]. rewrite !cube3, E2 in Hr.
  destruct (C14_primes root) as (ps & -> & HP). cbn [bind].
  destruct (C04_integer_nth_root 3 x ltac:(lia) ltac:(lia) ltac:(lia)) as (t & -> & Ht0 & Ht). cbn [bind]. rewrite !cube3 in Ht. pose proof (conj Hr0 Hr) as Hroot. pose proof (conj Ht0 Ht) as Ht3.
  pose proof (t3_big x t L2 Ht3) as T9. pose proof (root_t3 x root t L2 Hroot Ht3) as RT. pose proof (t3_root x root t L2 Hroot Ht3) as TR.
  destruct (near_sqrt x ltac:(lia)) as (r2 & Er & R2 & R2'). rewrite C04_integer_nth_root_2, Er. cbn [bind].
  pose proof (Z.sqrt_spec x ltac:(lia)) as SS. cbv zeta in SS. unfold Z.succ in SS. set (s := Z.sqrt x) in *. clearbody s. assert (S9 : 900 <= s) by (clear - SS L2; nia).
  assert (RR : r2 <= root) by (apply (small_le_root x root L2 Hroot); [lia| |lia]; clear - SS R2 S9; nia). assert (TS : t <= s). { assert (t < s + 1); [|lia]. destruct Ht as (F3 & _). clear - SS F3 T9 S9. apply sq_lt; [lia|lia|]. nia. }
  assert (HQ : forall n, t < n -> 0 <= x / n <= root) by (intros n Hn; apply (quot_bound x root t n); lia).
  rewrite (pi_bisect root ps HP t) by lia. rewrite (pi_bisect root ps HP r2) by lia. pose proof (pi_mono t r2 ltac:(lia)) as PM. pose proof (pi_range root ps HP r2 RR) as PR. pose proof (pi_nonneg t) as P0.
  destruct (value_ok root ps HP x r2 t (fun _ => 0) RR) as (v & -> & EV); [split; [lia|]; clear - SS R2 S9; nia|exact R2'|exact PM| |].
  { intros j Hj. assert (rd ps j <= r2) by (apply (pi_rd root ps HP); lia). assert (TJ : t < rd ps j) by (destruct (Z_lt_le_dec t (rd ps j)) as [|L]; [assumption|]; apply (pi_rd root ps HP) in L; lia). split; [apply HQ, TJ|].
    rewrite (Phi_last root ps HP j); [lia|lia|lia|]. split; [apply (div_ge2 _ s); lia|apply (div_lt_sq _ t); lia]. }
  cbn [bind]. destruct (tree_ok root x t ps HP (pi t) ltac:(lia) eq_refl ltac:(lia) v) as (v' & d & -> & Sp & K & ET). cbn [bind].
  destruct (rd_set (repeat 1 (Z.to_nat (root + 1))) 0 0) as (block & -> & BL & BR); [rewrite zlen_repeat; lia|]. cbn [bind]. pose proof (last_half root ps t HP ltac:(lia)) as (LH & _).
  assert (SV : sieved root ps 0 block). { split; [rewrite BL, zlen_repeat; lia|]. split; [rewrite BR; reflexivity|]. intros i Hi. rewrite BR. destruct (Z.eqb_spec i 0); [lia|]. unfold rd. destruct (Z.ltb_spec i 0); [lia|]. change (cop (pref ps 0) i) with 1. apply nth_repeat_1. lia. }
  destruct (phase_lmo x root t (pi t) ps HP d HQ ltac:(lia) Sp K v' block SV) as (b' & E). rewrite E. cbn [bind]. exists (pi x). split; [|apply pi_is]. f_equal. rewrite Sum_zero in EV by reflexivity. lia.
Qed.

Lemma Phi_ge N ps j y : primes_upto N ps -> 0 <= j < zlen ps -> 3 <= rd ps j -> rd ps j <= y < rd ps j * rd ps j -> Phi one (pref ps j) y = 1 + pi y - j.
Proof. intros HP Hj H3 H. pose proof (ps_bound N ps HP j Hj). pose proof (pi_before N ps HP j Hj) as B. rewrite <- B at 1. rewrite (Phi_pi N ps HP) by lia. lia. Qed.

Lemma lmo_bit_ok x root t s : 8 <= x -> roots_exact x root t s -> exists k, lmo_bit root t s x = Ret k /\ prime_count_is x k.
Proof.
  intros Hx ((R0 & R1 & R2) & (T0 & T1 & T2) & (S0 & S1 & S2)). rewrite !cube3 in *. rewrite !Z.pow_2_r in *.
  assert (T3 : 2 <= t) by (assert (1 < t + 1 -> 2 < t + 1 \/ t = 1) by lia; destruct (Z_le_gt_dec 2 t); [assumption|exfalso]; assert (t = 0 \/ t = 1) as [-> | ->] by lia; lia).
  assert (TS : t <= s). { assert (t < s + 1); [|lia]. apply sq_lt; [lia|lia|]. assert (t * t * 1 <= t * t * t) by (apply Z.mul_le_mono_nonneg_l; nia). lia. }
  assert (HQ : forall n, t < n -> 0 <= x / n <= root) by (intros n Hn; apply (quot_bound x root t n); lia).
  destruct (lmo_bit_gen x root t s (fun _ => 0) Hx (conj R0 (conj R1 R2)) (conj T3 TS) HQ (conj S1 S2)) as (ps & HP & E).
  - intros ps HP j Hj. pose proof (pi_nonneg t) as P0.
    assert (SR : s <= root). { assert (s < root + 1); [|lia]. apply cube_lt; [lia|lia|]. assert (s * s * (s * s) <= x * x) by (apply Z.mul_le_mono_nonneg; nia). assert (s * s * s * 1 <= s * s * s * s) by (apply Z.mul_le_mono_nonneg_l; nia). lia. }
    pose proof (pi_range root ps HP s SR) as PR. assert (rd ps j <= s) by (apply (pi_rd root ps HP); lia). assert (TJ : t < rd ps j) by (destruct (Z_lt_le_dec t (rd ps j)) as [|L]; [assumption|]; apply (pi_rd root ps HP) in L; lia).
    rewrite (Phi_ge root ps j _ HP); [lia|lia|lia|]. split; [apply (div_ge _ s); lia|apply (div_lt_sq _ t); lia].
  - rewrite Sum_zero in E by reflexivity. exists (pi x). rewrite E. split; [f_equal; lia|apply pi_is].
Qed.

(** The exponent is less than 1/3, so that the integer part of the cube root of a cube is too small by one. *)
Lemma pi_cube_gap p : prime p -> pi (p * p) = pi (p * p - 1).
Proof.
  intros P. pose proof (prime_ge_2 p P). unfold pi. replace (p * p) with (p * p - 1 + 1) at 1 by lia. rewrite PS_step by nia. replace (p * p - 1 + 1) with (p * p) by lia. unfold pr. destruct (prime_dec (p * p)) as [X|]; [|lia]. exfalso.
  assert (D : (p | p * p)) by (exists p; reflexivity). apply (prime_div_prime p (p * p) P X) in D. nia.
Qed.

Lemma lmo_bit_cube p s : prime p -> 3 <= p -> 0 <= s -> s ^ 2 <= p ^ 3 < (s + 1) ^ 2 -> exists k, lmo_bit (p ^ 2) (p - 1) s (p ^ 3) = Ret (k + 1) /\ prime_count_is (p ^ 3) k.
Proof.
  intros P H3 S0 (S1 & S2). rewrite !cube3 in *. rewrite !Z.pow_2_r in *. set (x := p * p * p) in *. assert (X27 : 27 <= x) by (unfold x; pose proof (cube_mono 3 p ltac:(lia)); lia).
  assert (PS : p <= s). { assert (p < s + 1); [|lia]. apply sq_lt; [lia|lia|]. assert (p * p * 1 <= p * p * p) by (apply Z.mul_le_mono_nonneg_l; nia). fold x in H. lia. }
  assert (HQ : forall n, p - 1 < n -> 0 <= x / n <= p * p). { intros n Hn. split; [apply Z.div_pos; lia|]. apply Z.div_le_upper_bound; [lia|]. unfold x. assert (p * (p * p) <= n * (p * p)) by (apply Z.mul_le_mono_nonneg_r; nia). lia. }
  assert (RR : 0 <= p * p /\ p * p * (p * p) * (p * p) <= x * x < (p * p + 1) * (p * p + 1) * (p * p + 1)). { unfold x. split; [nia|]. split; [apply Z.eq_le_incl; ring|]. assert (0 <= p * p) by nia. set (q := p * p) in *. replace (q * p * (q * p)) with (q * q * q) by (unfold q; ring). clearbody q. nia. }
  assert (SR : s <= p * p). { assert (s < p * p + 1); [|lia]. apply sq_lt; [lia|nia|]. assert (x <= p * p * (p * p)) by (unfold x; replace (p * p * (p * p)) with (p * p * p * p) by ring; assert (p * p * p * 1 <= p * p * p * p) by (apply Z.mul_le_mono_nonneg_l; nia); lia). nia. }
  set (e := fun q => if q =? p then 1 else 0). destruct (lmo_bit_gen x (p * p) (p - 1) s e ltac:(lia) RR ltac:(lia) HQ (conj S1 S2)) as (ps & HP & E).
  - intros ps HP j Hj. pose proof (pi_nonneg (p - 1)) as P0. pose proof (pi_range (p * p) ps HP s SR) as PR. assert (rd ps j <= s) by (apply (pi_rd (p * p) ps HP); lia). assert (TJ : p - 1 < rd ps j) by (destruct (Z_lt_le_dec (p - 1) (rd ps j)) as [|L]; [assumption|]; apply (pi_rd (p * p) ps HP) in L; nia).
    unfold e. destruct (Z.eqb_spec (rd ps j) p) as [Ep|Ep].
    + rewrite Ep. assert (x / p = p * p) as -> by (unfold x; rewrite Z.div_mul by lia; reflexivity). assert (PP : 4 <= p * p) by nia.
      unfold Phi. rewrite Sum_last by lia. replace (Sum 1 (p * p) (fun m => cop (pref ps j) m * one m)) with (Phi one (pref ps j) (p * p - 1)) by (unfold Phi; f_equal; lia).
      assert (NN : p <= p * p - 1) by nia. rewrite (Phi_ge (p * p) ps j _ HP) by (rewrite ?Ep; lia). rewrite (pi_cube_gap p P). assert (cop (pref ps j) (p * p) = 1) as ->; [|unfold one; lia].
      unfold cop. assert (free (pref ps j) (p * p) = true) as ->; [|reflexivity]. assert (B : forall q, In q (pref ps j) -> prime q /\ q < p) by (intros q Hq; apply (pref_below (p * p) ps HP) in Hq; [rewrite Ep in Hq; exact Hq|lia]). apply free_spec.
      * apply Forall_forall. intros q Hq. apply B in Hq as (Pq & _). apply prime_ge_2 in Pq. lia.
      * intros q Hq D. destruct (B q Hq) as (Pq & Lq). apply prime_mult in D; [|exact Pq]. destruct D as [D|D]; apply (prime_div_prime q p Pq P) in D; lia.
    + rewrite (Phi_ge (p * p) ps j _ HP); [lia|lia|lia|]. split; [apply (div_ge _ s); lia|]. apply Z.div_lt_upper_bound; [lia|]. unfold x. replace (rd ps j * (rd ps j * rd ps j)) with (rd ps j * rd ps j * rd ps j) by ring. pose proof (cube_mono (p + 1) (rd ps j) ltac:(lia)). nia.
  - exists (pi x). split; [|apply pi_is]. rewrite E. do 2 f_equal. assert (PI : In p ps) by (apply HP; split; [exact P|nia]). destruct (In_rd ps p PI) as (j & J1 & J2). pose proof (pi_nonneg (p - 1)) as P0. pose proof (pi_range (p * p) ps HP s SR) as PR.
    assert (J3 : pi (p - 1) = j) by (rewrite <- J2; apply (pi_before (p * p) ps HP), J1). assert (J4 : j < pi s) by (apply (pi_rd (p * p) ps HP); lia). rewrite (Sum_pick _ _ j); [unfold e; rewrite J2, Z.eqb_refl; reflexivity|lia|]. intros i Hi Ni. unfold e. destruct (Z.eqb_spec (rd ps i) p) as [Ei|]; [|reflexivity]. exfalso. rewrite <- J2 in Ei.
    pose proof (ps_lt (p * p) ps HP j i). lia.
Qed.

Lemma lmo_bit_small x root t s : 0 <= x < 8 -> roots_exact x root t s -> lmo_bit root t s x = Raise IndexError.
Proof.
  intros Hx ((R0 & R1 & R2) & (T0 & T1 & T2) & (S0 & S1 & S2)). rewrite !cube3 in *. rewrite !Z.pow_2_r in *.
  assert (root < 4) by (apply cube_lt; lia || nia). assert (t < 2) by (apply cube_lt; lia). assert (s < 3) by (apply sq_lt; lia).
  assert (CX : x = 0 \/ x = 1 \/ x = 2 \/ x = 3 \/ x = 4 \/ x = 5 \/ x = 6 \/ x = 7) by lia. assert (CR : root = 0 \/ root = 1 \/ root = 2 \/ root = 3) by lia. assert (CT : t = 0 \/ t = 1) by lia. assert (CS : s = 0 \/ s = 1 \/ s = 2) by lia.
  destruct CX as [-> |[-> |[-> |[-> |[-> |[-> |[-> | ->]]]]]]]; destruct CR as [-> |[-> |[-> | ->]]]; try (exfalso; lia); destruct CT as [-> | ->]; try (exfalso; lia); destruct CS as [-> |[-> | ->]]; try (exfalso; lia); vm_compute; reflexivity.
Qed.
