(** * Lehmer's method: the result *)
From Coq Require Import ZArith List Lia Bool Znumtheory Sorted.
From Verif Require Import Base Py Sums Lists Primes_Spec PrimeList_Data PrimeList_Proofs Core_Model Core_Spec Core_Props Sieves_Model Primes_Props PC_Model PC_Spec PC_Proofs PC_Proofs2 PC_Proofs3 PC_Proofs5 PC_Proofs6 PC_Proofs7 PC_Proofs8.
From Verif Require Bertrand2.
Import ListNotations.
Open Scope Z_scope.

Lemma Sum_nonneg a b f : (forall i, a <= i < b -> 0 <= f i) -> 0 <= Sum a b f.
Proof.
  intros H. destruct (Z_le_gt_dec b a) as [L|L]; [rewrite Sum_nil by lia; lia|]. assert (X : forall k, 0 <= k -> a + k <= b -> 0 <= Sum a (a + k) f).
  { intros k Hk. pattern k. apply natlike_ind; [rewrite Z.add_0_r, Sum_nil by lia; lia| |exact Hk]. intros m Hm IH Hb. unfold Z.succ in *. rewrite Z.add_assoc, Sum_last by lia. pose proof (H (a + m) ltac:(lia)). lia. }
  specialize (X (b - a) ltac:(lia) ltac:(lia)). replace (a + (b - a)) with b in X by lia. exact X.
Qed.
Lemma Sum_pos a b f i : a <= i < b -> (forall i, a <= i < b -> 0 <= f i) -> 0 < f i -> 0 < Sum a b f.
Proof.
  intros Hi H P. rewrite (Sum_app a i b) by lia. rewrite (Sum_first i b) by lia. pose proof (Sum_nonneg a i f ltac:(intros; apply H; lia)). pose proof (Sum_nonneg (i + 1) b f ltac:(intros; apply H; lia)). lia.
Qed.

Section lehmer.
  Context (n root r4 r2 r3 : Z) (fsqrt : Z -> Z) (ps : list Z).
  Hypothesis (Hn : 999983 < n) (Hroot : 0 <= root /\ p4 root <= n * n * n < p4 (root + 1)) (Hr4 : 0 <= r4 /\ p4 r4 <= n < p4 (r4 + 1)).
  Hypothesis (Hr2 : Z.sqrt n <= r2 <= Z.sqrt n + 1) (Hr2' : n < (r2 + 1) * (r2 + 1)) (Hr3 : 0 <= r3 /\ r3 * r3 * r3 <= n < (r3 + 1) * (r3 + 1) * (r3 + 1)).
  Hypothesis (Fl : sqrt_exact n fsqrt) (HP : primes_upto root ps).
  Notation lp := (last ps 0).
  Notation V := (V ps).
  Notation phi := (lehmer_phi fsqrt (S (length ps)) ps).

  Lemma phi_ok x a c : 0 <= x <= n -> 1 <= a <= zlen ps -> good V c -> exists c', phi x a c = Ret (V x a, c') /\ good V c'.
  Proof using All. intros Hx Ha G. apply (lehmer_phi_ok n root r4 fsqrt ps Hn Hroot Hr4 Fl HP); auto. unfold zlen in Ha. lia. Qed.

  Lemma run_ok : let a := pi r4 in let b := pi r2 in let c := pi r3 in
    exists ch v s1 ch1 s2 ch2, phi n a [] = Ret (v, ch) /\
    foldM (fun '(s1, ch) i => do p <- pyget ps i; do q <- pydiv n p; do '(v, ch) <- phi q b ch; Ret (s1 + (v + b - 1), ch)) (zrange a b) (0, ch) = Ret (s1, ch1) /\
    foldM (fun '(s2, ch) i => do p <- pyget ps i; do q <- pydiv n p; do s <- integer_sqrt q; do '(v, ch) <- phi s b ch; let bi := v + b - 1 in
      foldM (fun '(s2, ch) j => do p' <- pyget ps j; do q' <- pydiv n (p * p'); do '(v, ch) <- phi q' b ch; Ret (s2 + (v + b - 1 - j), ch)) (zrange i bi) (s2, ch)) (zrange a c) (0, ch1) = Ret (s2, ch2) /\
    (b + a - 2) * (b - a + 1) / 2 + v - s1 - s2 = pi n - Sum a b (fun i => V (n / rd ps i) b + b - 1 - pi (n / rd ps i)).
  Proof using All.
    intros a b c. pose proof (idx n root r4 r2 r3 ps Hn Hroot Hr4 Hr2 Hr3 HP) as (I1 & I2 & I3 & I4 & I5). fold a in I1, I5. fold b in I2, I3, I4. fold c in I1, I2. pose proof (big1 n root r4 r2 Hn Hroot Hr4 Hr2) as (B1 & B2 & B3).
    destruct (phi_ok n a [] ltac:(lia) ltac:(lia) (good_nil _)) as (ch & E0 & G0).
    set (f1 := fun '(s1, ch) i => do p <- pyget ps i; do q <- pydiv n p; do '(v, ch) <- phi q b ch; Ret (s1 + (v + b - 1), ch)).
    destruct (foldM_range f1 (fun k '(s, c) => s = Sum a k (fun i => V (n / rd ps i) b + b - 1) /\ good V c) a b (0, ch)) as ((s1 & ch1) & E1 & E1' & G1); [lia|split; [rewrite Sum_nil by lia; reflexivity|exact G0]| |].
    { intros i (s & c0) Hi (-> & G). destruct (pj n root r4 r2 r3 ps Hn Hroot Hr4 Hr2 Hr3 HP i Hi) as (J1 & J2 & J3). unfold f1. rewrite rd_get by lia. cbn [bind]. unfold pydiv. destruct (Z.eqb_spec (rd ps i) 0); [lia|]. cbn [bind].
      destruct (phi_ok (n / rd ps i) b c0 ltac:(pose proof (div_le (rd ps i) n ltac:(lia) ltac:(lia)); lia) ltac:(lia) G) as (c1 & -> & G'). cbn [bind]. eexists. split; [reflexivity|]. split; [rewrite Sum_last by lia; reflexivity|exact G']. }
    set (f2 := fun '(s2, ch) i => do p <- pyget ps i; do q <- pydiv n p; do s <- integer_sqrt q; do '(v, ch) <- phi s b ch; let bi := v + b - 1 in
      foldM (fun '(s2, ch) j => do p' <- pyget ps j; do q' <- pydiv n (p * p'); do '(v, ch) <- phi q' b ch; Ret (s2 + (v + b - 1 - j), ch)) (zrange i bi) (s2, ch)).
    pose proof (lp_big n root r2 ps Hn Hroot Hr2 HP) as LB.
    destruct (foldM_range f2 (fun k '(s, c) => s = Sum a k (fun i => Sum i (pi (isq (n / rd ps i))) (fun j => pi (n / (rd ps i * rd ps j)) - j)) /\ good V c) a c (0, ch1)) as ((s2 & ch2) & E2 & E2' & G2); [lia|split; [rewrite Sum_nil by lia; reflexivity|exact G1]| |].
    { intros i (s & c0) Hi (-> & G). destruct (pj n root r4 r2 r3 ps Hn Hroot Hr4 Hr2 Hr3 HP i ltac:(lia)) as (J1 & J2 & J3). pose proof (level n root r4 r2 r3 ps Hn Hroot Hr4 Hr2 Hr3 HP i Hi) as LV. cbv zeta in LV. destruct LV as (L1 & L2 & L3 & _). unfold f2. rewrite rd_get by lia. cbn [bind]. unfold pydiv at 1. destruct (Z.eqb_spec (rd ps i) 0); [lia|]. cbn [bind].
      destruct (isq_spec (n / rd ps i) ltac:(lia)) as (-> & Q1 & Q2). cbn [bind]. pose proof (Z.sqrt_nonneg (n / rd ps i)). set (y := isq (n / rd ps i)) in *.
      assert (Yn : y <= n). { pose proof (s_spec n Hn) as (A1 & A2 & _). set (t := Z.sqrt n) in *. clearbody t. clear - A1 A2 L2 Hr2. nia. }
      destruct (phi_ok y b c0 ltac:(lia) ltac:(lia) G) as (c1 & -> & G'). cbn [bind]. pose proof (V_b n root r4 r2 r3 ps Hn Hroot Hr4 Hr2 Hr3 HP y ltac:(lia) ltac:(lia)) as EB. fold b in EB. rewrite EB. replace (pi y - b + 1 + b - 1) with (pi y) by lia. cbv zeta.
      pose proof (pi_range root ps HP y ltac:(lia)) as PY.
      set (f3 := fun '(s2, ch) j => do p' <- pyget ps j; do q' <- pydiv n (rd ps i * p'); do '(v, ch) <- phi q' b ch; Ret (s2 + (v + b - 1 - j), ch)).
      set (s0 := Sum a i _). destruct (foldM_range f3 (fun k '(s, c) => s = s0 + Sum i k (fun j => pi (n / (rd ps i * rd ps j)) - j) /\ good V c) i (pi y) (s0, c1)) as ((s3 & ch3) & -> & -> & G3); [exact L3|split; [rewrite Sum_nil by lia; lia|exact G']| |].
      { intros j (s & c2) Hj (-> & G''). unfold f3. rewrite rd_get by lia. cbn [bind]. pose proof (ps_le root ps HP i j ltac:(lia) ltac:(lia)) as M. unfold pydiv. assert (PP : (r4 + 1) * (r4 + 1) <= rd ps i * rd ps j) by (apply Z.mul_le_mono_nonneg; lia). destruct (Z.eqb_spec (rd ps i * rd ps j) 0); [nia|]. cbn [bind].
        assert (QQ : 0 <= n / (rd ps i * rd ps j) <= r2).
        { split; [apply Z.div_pos; nia|]. apply Z.le_trans with (n / ((r4 + 1) * (r4 + 1))); [apply Z.div_le_compat_l; nia|]. assert (n / ((r4 + 1) * (r4 + 1)) < r2 + 1); [|lia]. apply Z.div_lt_upper_bound; [nia|]. destruct Hr4 as (R0 & R1 & R3). unfold p4 in R3. set (u := (r4 + 1) * (r4 + 1)) in *. assert (r2 < u + 1 \/ u + 1 <= r2) as [U|U] by lia.
          - assert (Z.sqrt n < u). { destruct (Z_lt_le_dec (Z.sqrt n) u) as [|U2]; [assumption|exfalso]. pose proof (s_spec n Hn) as (_ & A2 & _). pose proof (sq_mono u (Z.sqrt n) ltac:(unfold u; nia)). lia. }
            apply Z.lt_le_trans with (u * (Z.sqrt n + 1)); [|apply Z.mul_le_mono_nonneg_l; [unfold u; nia|lia]]. pose proof (s_spec n Hn) as (_ & _ & A3). pose proof (Z.sqrt_nonneg n). apply Z.lt_le_trans with ((Z.sqrt n + 1) * (Z.sqrt n + 1)); [exact A3|]. apply Z.mul_le_mono_nonneg_r; lia.
          - apply Z.lt_le_trans with (u * u); [exact R3|]. apply Z.mul_le_mono_nonneg_l; [unfold u; nia|lia]. }
        assert (Rn : r2 <= n). { pose proof (s_spec n Hn) as (A1 & A2 & _). set (t := Z.sqrt n) in *. clearbody t. clear - A1 A2 Hr2. nia. }
        destruct (phi_ok (n / (rd ps i * rd ps j)) b c2 ltac:(lia) ltac:(lia) G'') as (c3 & -> & G3). cbn [bind]. pose proof (V_b n root r4 r2 r3 ps Hn Hroot Hr4 Hr2 Hr3 HP (n / (rd ps i * rd ps j)) ltac:(lia) ltac:(lia)) as EC. fold b in EC. rewrite EC. eexists. split; [reflexivity|]. split; [rewrite Sum_last by lia; lia|exact G3]. }
      eexists. split; [reflexivity|]. split; [unfold s0; rewrite Sum_last by lia; reflexivity|exact G3]. }
    exists ch, (V n a), s1, ch1, s2, ch2. split; [exact E0|]. split; [exact E1|]. split; [exact E2|].
    rewrite E1', E2'. pose proof (V_n n root r4 r2 r3 ps Hn Hroot Hr4 Hr2 Hr3 HP) as EN. fold a in EN. rewrite EN. pose proof (formula n root r4 r2 r3 ps Hn Hroot Hr4 Hr2 Hr2' Hr3 HP) as F. unfold S2 in F. fold a b c in F |- *. rewrite (Sum_minus a b (fun i => V (n / rd ps i) b + b - 1) (fun i => pi (n / rd ps i))). lia.
  Qed.

  (** The summands of phi2 are too large exactly when the quotient is not below the last prime. *)
  Lemma exact_term q : 0 <= q <= n -> q < lp -> V q (pi r2) + pi r2 - 1 = pi q.
  Proof using Hn Hroot Hr4 Hr2 Hr3 HP. intros H L. rewrite (V_b n root r4 r2 r3 ps Hn Hroot Hr4 Hr2 Hr3 HP q) by assumption. lia. Qed.
  Lemma V_below x j : 1 <= x <= root -> 2 * x <= root -> 1 <= j < pi r2 -> V x j <= Phi one (pref ps j) x /\ (x < rd ps (j - 1) -> 7 < j -> pi (Z.sqrt x) <= j -> V x j < Phi one (pref ps j) x).
  Proof using All.
    intros Hx H2 Hj. pose proof (idx n root r4 r2 r3 ps Hn Hroot Hr4 Hr2 Hr3 HP) as (I1 & I2 & I3 & I4 & I5). pose proof (lp_half n root ps Hn Hroot HP) as LH. assert (XL : x < lp) by lia.
    assert (RN : root <= n). { destruct Hroot as (A & B & _). destruct (Z_le_gt_dec root n) as [|G]; [assumption|exfalso]. pose proof (p4_mono n root ltac:(lia)) as M. unfold p4 in M, B. assert (n * n * n * 1 < n * n * n * n) by (apply Z.mul_lt_mono_pos_l; nia). lia. }
    destruct (Z_le_gt_dec (rd ps (j - 1)) x) as [L|L].
    { split; [|lia]. rewrite (V_good n root r4 ps Hn Hroot Hr4 HP x j); [lia|]. unfold ldom. lia. }
    destruct (Z_le_gt_dec j 7) as [L7|L7]; [split; [|lia]; rewrite V_eq by lia; destruct (Z.leb_spec j 7); lia|].
    assert (X : V x j < Phi one (pref ps j) x); [|split; [lia|intros; exact X]].
    assert (PL : pi x < j). { pose proof (pi_mono x (rd ps (j - 1) - 1) ltac:(lia)) as PM. rewrite (pi_before root ps HP) in PM by lia. lia. }
    assert (PS : pi (Z.sqrt x) <= j). { pose proof (Z.sqrt_le_lin x ltac:(lia)) as SL. pose proof (pi_mono _ _ SL). lia. }
    rewrite V_direct by lia. assert (PE : Phi one (pref ps j) x = 1); [|lia]. pose proof (pi_at root ps HP (j - 1) ltac:(lia)) as PA. replace (j - 1 + 1) with j in PA by lia. rewrite <- PA. apply (Phi_small root ps HP); [apply (ps_bound root ps HP); lia|lia].
  Qed.
  Lemma nine : 9 <= pi r2.
  Proof using All.
    pose proof (big1 n root r4 r2 Hn Hroot Hr4 Hr2) as (B1 & B2 & B3). destruct (Bertrand2.bertrand 17 ltac:(lia)) as (p & P & B). destruct (Bertrand2.bertrand 34 ltac:(lia)) as (p' & P' & B').
    pose proof (pi_list 17 _ upto17) as P17. change (zlen [2; 3; 5; 7; 11; 13; 17]) with 7 in P17.
    assert (I : In p ps) by (apply HP; split; [exact P|lia]). apply In_rd in I as (j & Hj & E). assert (I' : In p' ps) by (apply HP; split; [exact P'|lia]). apply In_rd in I' as (j' & Hj' & E').
    assert (7 <= j). { destruct (Z_lt_le_dec j 7) as [L|L]; [|lia]. assert (rd ps j <= 17) by (apply (pi_rd root ps HP); lia). lia. }
    assert (j < j') by (apply (ps_inv root ps HP); lia). assert (j' < pi r2) by (apply (pi_rd root ps HP); lia). lia.
  Qed.
  Lemma two_last : r2 + 1 <= 2 * rd ps (pi r2 - 1) /\ r2 + 1 <= 4 * rd ps (pi r2 - 1 - 1).
  Proof using All.
    pose proof (big1 n root r4 r2 Hn Hroot Hr4 Hr2) as (B1 & B2 & B3). pose proof nine as N9. pose proof (pi_range root ps HP r2 B1) as PR.
    pose proof (Z.div_mod r2 2 ltac:(lia)) as D1. pose proof (Z.mod_pos_bound r2 2 ltac:(lia)) as D2. set (h := r2 / 2) in *. pose proof (Z.div_mod h 2 ltac:(lia)) as D3. pose proof (Z.mod_pos_bound h 2 ltac:(lia)) as D4. set (g := h / 2) in *.
    destruct (Bertrand2.bertrand h ltac:(lia)) as (p & P & B). destruct (Bertrand2.bertrand g ltac:(lia)) as (p' & P' & B').
    assert (I : In p ps) by (apply HP; split; [exact P|lia]). apply In_rd in I as (j & Hj & E). assert (I' : In p' ps) by (apply HP; split; [exact P'|lia]). apply In_rd in I' as (j' & Hj' & E').
    assert (J1 : j < pi r2) by (apply (pi_rd root ps HP); lia). assert (J2 : j' < j) by (apply (ps_inv root ps HP); lia).
    pose proof (ps_le root ps HP j (pi r2 - 1) ltac:(lia) ltac:(lia)). pose proof (ps_le root ps HP j' (pi r2 - 1 - 1) ltac:(lia) ltac:(lia)). lia.
  Qed.
  Lemma root_n : 31 * root <= n.
  Proof using Hn Hroot Hr4.
    pose proof (r4_big n r4 Hn Hr4) as R. destruct Hr4 as (A & B & C), Hroot as (D & E & F). assert (31 * root < n + 1); [|lia]. apply p4_lt; [lia|lia|]. apply Z.le_lt_trans with (p4 n); [|unfold p4; nia].
    pose proof (p4_mono 31 r4 ltac:(lia)) as M. replace (p4 (31 * root)) with (p4 31 * p4 root) by (unfold p4; ring). replace (p4 n) with (n * (n * n * n)) by (unfold p4; ring). assert (0 <= p4 root) by (unfold p4; nia). assert (0 <= p4 31) by (unfold p4; lia). apply Z.mul_le_mono_nonneg; lia.
  Qed.
  Lemma excess q : lp <= q <= root -> pi q < V q (pi r2) + pi r2 - 1.
  Proof using All.
    intros Hq. pose proof (idx n root r4 r2 r3 ps Hn Hroot Hr4 Hr2 Hr3 HP) as (I1 & I2 & I3 & I4 & I5). pose proof (lp_big n root r2 ps Hn Hroot Hr2 HP) as LB. pose proof (big1 n root r4 r2 Hn Hroot Hr4 Hr2) as (B1 & B2 & B3). set (b := pi r2) in *.
    rewrite V_eq by lia. destruct (Z.leb_spec b 7); [lia|]. destruct (Z.ltb_spec q lp); [lia|]. rewrite andb_false_r.
    assert (PB : rd ps (b - 1) <= r2) by (apply (pi_rd root ps HP); unfold b in *; lia).
    assert (PH : Phi one (pref ps b) q = pi q - b + 1).
    { apply (direct_Phi root ps HP q b); [lia|lia| | |lia].
      - apply pi_mono. assert (Z.sqrt q <= Z.sqrt n); [|lia]. apply Z.sqrt_le_mono. destruct Hroot as (A & B & _). destruct (Z_le_gt_dec root n) as [|G]; [lia|exfalso]. pose proof (p4_mono n root ltac:(lia)) as M. unfold p4 in M, B. assert (n * n * n * 1 < n * n * n * n) by (apply Z.mul_lt_mono_pos_l; nia). lia.
      - pose proof (Z.sqrt_le_lin q ltac:(lia)). lia. }
    pose proof (root17 n root Hn Hroot) as R17. pose proof (Phi_unfold root ps HP one q 1 b one_completely ltac:(lia) ltac:(lia) ltac:(lia)) as U. rewrite (Phi_two root ps q HP) in U by lia.
    assert (J : forall j, 1 <= j < b -> 2 <= rd ps j <= q /\ 1 <= q / rd ps j <= root /\ 2 * (q / rd ps j) <= root).
    { intros j Hj. pose proof (ps_ge2 root ps HP j ltac:(lia)) as G2. pose proof (ps_le root ps HP j (b - 1) ltac:(lia) ltac:(lia)) as LE. split; [lia|]. assert (1 <= q / rd ps j) by (apply Z.div_le_lower_bound; lia). pose proof (div_le (rd ps j) q ltac:(lia) ltac:(lia)). split; [lia|]. pose proof (Z.mul_div_le q (rd ps j) ltac:(lia)). nia. }
    assert (P : 0 < Sum 1 b (fun j => one (rd ps j) * Phi one (pref ps j) (q / rd ps j) - (if q <? rd ps j then 0 else 1 * V (q / rd ps j) j))).
    { apply (Sum_pos 1 b _ (b - 1)); [lia| |].
      - intros j Hj. destruct (J j Hj) as (J1 & J2 & J3). destruct (Z.ltb_spec q (rd ps j)); [lia|]. destruct (V_below (q / rd ps j) j J2 J3 ltac:(lia)) as (X & _). unfold one in *. lia.
      - destruct (J (b - 1) ltac:(lia)) as (J1 & J2 & J3). destruct (Z.ltb_spec q (rd ps (b - 1))); [lia|]. destruct (V_below (q / rd ps (b - 1)) (b - 1) J2 J3 ltac:(lia)) as (X & Y). destruct (Z_lt_le_dec 7 (b - 1)) as [L7|L7].
        + assert (q / rd ps (b - 1) < rd ps (b - 1 - 1)) as Q.
          { apply Z.div_lt_upper_bound; [lia|]. pose proof two_last as (T1 & T2). fold b in T1, T2. pose proof root_n as RN. pose proof (Z.mul_le_mono_nonneg (r2 + 1) (2 * rd ps (b - 1)) (r2 + 1) (4 * rd ps (b - 1 - 1)) ltac:(lia) ltac:(lia) ltac:(lia) ltac:(lia)). lia. }
          assert (V (q / rd ps (b - 1)) (b - 1) < Phi one (pref ps (b - 1)) (q / rd ps (b - 1))); [|unfold one in *; lia]. apply Y; [exact Q|exact L7|].
          pose proof (pi_mono (Z.sqrt (q / rd ps (b - 1))) (rd ps (b - 1 - 1)) ltac:(pose proof (Z.sqrt_le_lin (q / rd ps (b - 1)) ltac:(lia)); lia)) as PM. rewrite (pi_at root ps HP) in PM by lia. lia.
        + pose proof nine. fold b in H0. lia. }
    rewrite Sum_minus in P. lia.
  Qed.
End lehmer.
