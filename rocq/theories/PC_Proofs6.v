(** * Meissel's method *)
From Coq Require Import ZArith List Lia Bool Znumtheory Sorted.
From Verif Require Import Base Py Sums Lists Primes_Spec PrimeList_Data PrimeList_Proofs Core_Model Core_Spec Core_Props Sieves_Model Primes_Props PC_Model PC_Spec PC_Proofs PC_Proofs2 PC_Proofs3 PC_Proofs5.
Import ListNotations.
Open Scope Z_scope.

Section phi2.
  Context (root : Z) (ps t : list Z) (HP : primes_upto root ps) (Ht : zlen t = root + 1) (HT : forall i, 0 <= i <= root -> rd t i = pi i).
  Lemma tget i : 0 <= i <= root -> pyget t i = Ret (pi i).
  Proof using Ht HT. intros H. rewrite rd_get, HT by lia. reflexivity. Qed.
  Lemma phi2_ok x a b : 0 <= a <= b -> b <= zlen ps -> (forall j, a <= j < b -> 0 <= x / rd ps j <= root) ->
    meissel_phi2 ps t x a b = Ret ((a - b) * (b + a - 1) / 2 + Sum a b (fun j => pi (x / rd ps j))).
  Proof using HP Ht HT.
    intros Hab Hb Hq. unfold meissel_phi2. set (s0 := (a - b) * (b + a - 1) / 2).
    destruct (foldM_range (fun total i => do p <- pyget ps i; do q <- pydiv x p; do v <- pyget t q; Ret (total + v)) (fun k s => s = s0 + Sum a k (fun j => pi (x / rd ps j))) a b s0) as (s & -> & E); [lia|rewrite Sum_nil by lia; lia| |rewrite E; reflexivity].
    intros i s Hi ->. rewrite rd_get by lia. cbn [bind]. pose proof (ps_ge2 root ps HP i ltac:(lia)). unfold pydiv. destruct (Z.eqb_spec (rd ps i) 0); [lia|]. cbn [bind]. rewrite tget by (apply Hq; lia). cbn [bind]. eexists. split; [reflexivity|]. rewrite Sum_last by lia. lia.
  Qed.
End phi2.

Lemma cube_lt a b : 0 <= a -> 0 <= b -> a * a * a < b * b * b -> a < b.
Proof. intros A B H. destruct (Z_lt_le_dec a b); [assumption|exfalso]. assert (b * b <= a * a) by nia. nia. Qed.
Lemma cube_mono a b : 0 <= a <= b -> a * a * a <= b * b * b.
Proof. intros H. assert (a * a <= b * b) by nia. nia. Qed.
Lemma sq_lt a b : 0 <= a -> 0 <= b -> a * a < b * b -> a < b.
Proof. intros. nia. Qed.

Lemma div_ge p s x : 0 < p <= s -> s * s <= x -> p <= x / p.
Proof. intros H L. apply Z.div_le_lower_bound; [lia|]. apply Z.le_trans with (s * s); [|exact L]. apply Z.mul_le_mono_nonneg; lia. Qed.
Lemma div_ge2 p s x : 0 < p <= s + 1 -> s * s <= x -> p - 2 <= x / p.
Proof. intros H L. apply Z.div_le_lower_bound; [lia|]. assert ((p - 1) * (p - 1) <= s * s) by (apply Z.mul_le_mono_nonneg; lia). lia. Qed.
Lemma div_le p x : 0 < p -> 0 <= x -> 0 <= x / p <= x.
Proof. intros H L. split; [apply Z.div_pos; lia|]. apply Z.div_le_upper_bound; [lia|]. nia. Qed.
Lemma div_lt_sq p k x : 0 <= k < p -> x < (k + 1) * (k + 1) * (k + 1) -> x / p < p * p.
Proof. intros H L. apply Z.div_lt_upper_bound; [lia|]. assert ((k + 1) * (k + 1) * (k + 1) <= p * p * p) by (apply cube_mono; lia). lia. Qed.
Lemma sqrt_ge1 s x : 0 <= s -> 1 <= x -> x < (s + 1) * (s + 1) -> 1 <= s.
Proof. intros H X L. destruct (Z.eq_dec s 0) as [-> |]; lia. Qed.

Section meissel.
  Context (n root t3 : Z) (fsqrt fcbrt : Z -> Z) (ps t : list Z).
  Hypothesis (Hn : 999983 < n) (Hroot : 0 <= root /\ root * root * root <= n * n < (root + 1) * (root + 1) * (root + 1)) (Ht3 : 0 <= t3 /\ t3 * t3 * t3 <= n < (t3 + 1) * (t3 + 1) * (t3 + 1)).
  Hypothesis (Fl : floats_exact n fsqrt fcbrt) (HP : primes_upto root ps) (Ht : zlen t = root + 1) (HT : forall i, 0 <= i <= root -> rd t i = pi i).

  Lemma t3_big : 99 <= t3.
  Proof using Hn Ht3. destruct Ht3 as (A & B & C). assert (99 < t3 + 1); [|lia]. apply cube_lt; lia. Qed.
  Lemma root_t3 : t3 * t3 <= root.
  Proof using Hn Ht3 Hroot.
    destruct Ht3 as (A & B & C), Hroot as (D & E & F). assert (t3 * t3 < root + 1); [|lia]. apply cube_lt; [nia|lia|]. apply Z.le_lt_trans with (n * n); [|exact F]. replace (t3 * t3 * (t3 * t3) * (t3 * t3)) with ((t3 * t3 * t3) * (t3 * t3 * t3)) by ring. apply Z.mul_le_mono_nonneg; try lia; apply Z.mul_nonneg_nonneg; nia.
  Qed.
  Lemma root_le_n : root <= n.
  Proof using Hn Hroot. destruct Hroot as (D & E & F). destruct (Z_le_gt_dec root n) as [|G]; [assumption|exfalso]. assert (n * n * n <= root * root * root) by (apply cube_mono; lia). assert (n * n * 1 < n * n * n) by (apply Z.mul_lt_mono_pos_l; nia). lia. Qed.
  Lemma small_le_root y : 0 <= y -> (y - 1) * (y - 1) <= n -> 5 <= y -> y <= root.
  Proof using Hn Hroot.
    intros Hy L H5. destruct Hroot as (D & E & F). assert (y < root + 1); [|lia]. apply cube_lt; [lia|lia|]. apply Z.le_lt_trans with (n * n); [|exact F]. apply Z.le_trans with (((y - 1) * (y - 1)) * ((y - 1) * (y - 1))); [|apply Z.mul_le_mono_nonneg; nia].
    assert (exists z, y = z + 5 /\ 0 <= z) as (z & -> & Hz) by (exists (y - 5); lia). assert (0 <= z * z) by nia. assert (0 <= z * z * z) by nia. assert (0 <= z * z * z * z) by nia. lia.
  Qed.
  Lemma quot_le_root p : t3 < p -> 0 <= n / p <= root.
  Proof using Hn Hroot Ht3.
    intros Hp. destruct Ht3 as (A & B & C), Hroot as (D & E & F). split; [apply Z.div_pos; lia|]. assert (n / p < root + 1); [|lia]. apply cube_lt; [apply Z.div_pos; lia|lia|]. apply Z.le_lt_trans with (n * n); [|exact F].
    assert (Q : 0 <= n / p) by (apply Z.div_pos; lia). pose proof (Z.mul_div_le n p ltac:(lia)) as M. set (q := n / p) in *. clearbody q. assert (P3 : n <= p * p * p) by (assert ((t3 + 1) * (t3 + 1) * (t3 + 1) <= p * p * p) by (apply cube_mono; lia); lia).
    assert (X : (p * q) * (p * q) * (p * q) <= n * n * n) by (apply cube_mono; split; [apply Z.mul_nonneg_nonneg|]; lia). clear - X P3 Q Hn Hp A. destruct (Z_le_gt_dec (q * q * q) (n * n)) as [|G]; [assumption|exfalso].
    assert (n * (n * n) < (p * p * p) * (q * q * q)); [|replace ((p * q) * (p * q) * (p * q)) with ((p * p * p) * (q * q * q)) in X by ring; lia]. apply Z.le_lt_trans with (p * p * p * (n * n)); [apply Z.mul_le_mono_nonneg_r; [nia|exact P3]|]. apply Z.mul_lt_mono_pos_l; lia.
  Qed.
  Lemma sqrt_le_root x : 0 <= x <= n -> 0 <= Z.sqrt x <= root.
  Proof using Hn Hroot Ht3.
    intros H. split; [apply Z.sqrt_nonneg|]. pose proof (Z.sqrt_spec x ltac:(lia)) as S. cbv zeta in S. set (s := Z.sqrt x) in *. clearbody s. destruct (Z_le_gt_dec s 5) as [L|L]; [|apply small_le_root; [lia| |lia]; assert ((s - 1) * (s - 1) <= s * s) by nia; lia]. pose proof t3_big. pose proof root_t3. nia.
  Qed.
  Lemma fcbrt_le_root x : 0 <= x <= n -> 0 <= fcbrt x <= root.
  Proof using Hn Hroot Ht3 Fl.
    intros H. destruct (Fl x H) as (_ & A & B & C). split; [exact A|]. assert (fcbrt x < t3 + 1) by (apply cube_lt; lia). pose proof t3_big. pose proof root_t3. nia.
  Qed.

  (** The arguments with which phi is called. *)
  Definition dom (x a : Z) : Prop := 1 <= x <= n /\ 1 <= a <= pi t3 /\ rd ps (a - 1) <= x.
  Definition FP (x a : Z) : Z := Phi one (pref ps a) x.

  Lemma t3_root : t3 <= root.
  Proof using Hn Hroot Ht3. pose proof t3_big. pose proof root_t3. nia. Qed.
  Lemma a_range : pi t3 <= zlen ps.
  Proof using HP Hn Hroot Ht3. apply (pi_range root ps HP), t3_root. Qed.
  Lemma p_small j : 0 <= j < pi t3 -> 2 <= rd ps j <= t3.
  Proof using HP Hn Hroot Ht3. intros H. pose proof a_range. split; [apply (ps_ge2 root ps HP); lia|]. apply (pi_rd root ps HP); [apply t3_root|lia|lia]. Qed.

  Lemma meissel_phi_ok : forall fuel x a c, dom x a -> a < Z.of_nat fuel -> good FP c -> exists c', meissel_phi fsqrt fcbrt fuel root ps t x a c = Ret (FP x a, c') /\ good FP c'.
  Proof using All.
    pose proof t3_big as T9. pose proof root_t3 as RT. pose proof t3_root as TR. pose proof a_range as AR. assert (R17 : 17 <= root) by (clear - T9 RT; nia).
    induction fuel as [|fuel IH]; intros x a c (Hx & Ha & Hp) Hf G; [lia|]. cbn [meissel_phi]. destruct (cache_get c x a) as [v|] eqn:Ec; [exists c; split; [rewrite (G x a v Ec); reflexivity|exact G]|].
    destruct (Fl x ltac:(lia)) as (F1 & F2 & F3). rewrite F1. rewrite (tget root t Ht HT (Z.sqrt x)) by (apply sqrt_le_root; lia). cbn [bind]. rewrite (tget root t Ht HT (fcbrt x)) by (apply fcbrt_le_root; lia). cbn [bind].
    pose proof (sqrt_le_root x ltac:(lia)) as SR. pose proof (fcbrt_le_root x ltac:(lia)) as CR. pose proof (Z.sqrt_spec x ltac:(lia)) as SS. unfold Z.succ in SS.
    set (s := Z.sqrt x) in *. set (k := fcbrt x) in *. assert (S1 : 1 <= s) by (apply (sqrt_ge1 s x); lia).
    destruct (Z.leb_spec a 7) as [L7|L7]; [cbn [bind]; exists ((x, a, FP x a) :: c); unfold FP at 1 2; rewrite (closed_ok root ps HP R17 a x) by lia; split; [reflexivity|apply good_cons, G]|].
    assert (P7 : forall j, 7 <= j < zlen ps -> 5 <= rd ps j). { intros j Hj. destruct (pref7 root ps HP R17) as (E7 & _). assert (rd ps 2 = 5) as E2. { assert (rd (pref ps 7) 2 = 5) as X by (rewrite E7; reflexivity). unfold pref in X. rewrite rd_firstn in X by lia. exact X. } pose proof (ps_lt root ps HP 2 j). lia. }
    destruct ((a <? pi s) && (pi k <=? a) && (x <=? root)) eqn:B1.
    { apply andb_prop in B1 as (B1 & B3). apply andb_prop in B1 as (B1 & B2). apply Z.ltb_lt in B1. apply Z.leb_le in B2, B3. rewrite (tget root t Ht HT x) by lia. cbn [bind].
      pose proof (pi_range root ps HP s ltac:(lia)) as PR.
      assert (JJ : forall j, a <= j < pi s -> 5 <= rd ps j /\ rd ps j - 2 <= x / rd ps j < rd ps j * rd ps j).
      { intros j Hj. pose proof (P7 j ltac:(lia)). split; [assumption|]. assert (rd ps j <= s) by (apply (pi_rd root ps HP); lia). assert (k < rd ps j). { destruct (Z_lt_le_dec k (rd ps j)); [assumption|]. assert (j < pi k) by (apply (pi_rd root ps HP); lia). lia. }
        split; [pose proof (div_ge (rd ps j) s x ltac:(lia) ltac:(lia)); lia|]. apply (div_lt_sq _ k); lia. }
      rewrite (phi2_ok root ps t HP Ht HT x a (pi s)) by (try lia; intros j Hj; specialize (JJ j Hj); pose proof (div_le (rd ps j) x ltac:(lia) ltac:(lia)); lia). cbn [bind].
      assert (EV : FP x a = pi x - a + 1 + ((a - pi s) * (pi s + a - 1) / 2 + Sum a (pi s) (fun j => pi (x / rd ps j)))) by (apply (level2 root ps HP); auto; try lia; split; [lia|]; clear - SS S1; nia). rewrite <- EV. eexists. split; [reflexivity|]. apply good_cons, G. }
    destruct ((pi s <=? a) && (x <=? root)) eqn:B4.
    { apply andb_prop in B4 as (B4 & B3). apply Z.leb_le in B4, B3. rewrite (tget root t Ht HT x) by lia. cbn [bind].
      assert (EV : FP x a = pi x - a + 1).
      { unfold FP. set (y := Z.max s (rd ps (a - 1))). assert (Ey : pi y = a). { pose proof (pi_at root ps HP (a - 1) ltac:(lia)) as A1. unfold y. destruct (Z.max_spec s (rd ps (a - 1))) as [(M1 & ->)|(M1 & ->)]; [lia|]. pose proof (pi_mono _ _ M1). lia. }
        rewrite <- Ey at 1. assert (SX : s <= x) by (clear - SS S1; nia). assert (Py : y <= root) by (pose proof (ps_le root ps HP (a - 1)); lia). rewrite (Phi_pi root ps HP y x); [lia|exact Py|lia|]. assert (Sy : s <= y) by lia. clear - SS S1 Sy. nia. }
      rewrite <- EV. eexists. split; [reflexivity|]. apply good_cons, G. }
    (* the recursion *)
    assert (DX : forall j, 1 <= j < a -> rd ps j <= x -> dom (x / rd ps j) j).
    { intros j Hj Lj. pose proof (p_small j ltac:(lia)) as PJ. split; [split; [apply Z.div_le_lower_bound; lia|pose proof (div_le (rd ps j) x ltac:(lia) ltac:(lia)); lia]|]. split; [lia|]. pose proof (ps_lt root ps HP (j - 1) j ltac:(lia) ltac:(lia)).
      assert (rd ps j <= x / rd ps j); [|lia]. destruct (Z_le_gt_dec x root) as [XR|XR]; [|apply (div_ge _ t3); lia].
      assert (a < pi s). { destruct (Z_lt_le_dec a (pi s)) as [|L]; [assumption|]. exfalso. apply Z.leb_le in L. apply Z.leb_le in XR. rewrite L, XR in B4. discriminate. }
      assert (rd ps j <= s) by (apply (pi_rd root ps HP); lia). apply (div_ge _ s); lia. }
    destruct (loop_ok root ps HP FP (meissel_phi fsqrt fcbrt fuel root ps t) (fun _ => 1) x 1 a ltac:(lia) ltac:(lia)) with (value := (x + 1) / 2) (c := c) as (c1 & E & G1).
    { intros j c0 Hj Lj G0. apply IH; auto; lia. }
    { exact G. }
    rewrite E. cbn [bind]. assert (EV : (x + 1) / 2 - Sum 1 a (fun j => if x <? rd ps j then 0 else 1 * FP (x / rd ps j) j) = FP x a).
    { rewrite (collapse ps (fun _ => 1) x (fun j y => FP y j)); [|intros j Hj; pose proof (ps_ge2 root ps HP j); lia|lia|intros; apply Phi_0].
      unfold FP. rewrite (Phi_unfold root ps HP one x 1 a one_completely) by lia. rewrite (Phi_two root ps x HP) by lia. reflexivity. }
    rewrite EV. eexists. split; [reflexivity|]. apply good_cons, G1.
  Qed.

  Lemma meissel_value r2 : Z.sqrt n <= r2 <= Z.sqrt n + 1 -> n < (r2 + 1) * (r2 + 1) -> 
    exists c, meissel_phi fsqrt fcbrt (S (Z.to_nat (pi t3))) root ps t n (pi t3) [] = Ret (FP n (pi t3), c) /\ meissel_phi2 ps t n (pi t3) (pi r2) = Ret (FP n (pi t3) - 1 + pi t3 - pi n).
  Proof using All.
    intros R2 R2'. pose proof t3_big as T9. pose proof root_t3 as RT. pose proof t3_root as TR. pose proof a_range as AR. assert (R17 : 17 <= root) by (clear - T9 RT; nia). pose proof (Z.sqrt_spec n ltac:(lia)) as SS. unfold Z.succ in SS.
    set (s := Z.sqrt n) in *. clearbody s. assert (S9 : 900 <= s) by (clear - SS Hn; nia). assert (r2 <= root) by (apply small_le_root; [lia| |lia]; clear - SS R2 S9; nia). assert (t3 <= s). { assert (t3 < s + 1); [|lia]. destruct Ht3 as (_ & F3 & _). clear - SS F3 T9 S9. apply sq_lt; [lia|lia|]. nia. }
    assert (PM : pi t3 <= pi r2) by (apply pi_mono; lia). pose proof (pi_range root ps HP r2 ltac:(lia)) as PR.
    assert (P25 : 7 <= pi t3) by (pose proof (pi_mono 17 t3 ltac:(lia)); pose proof (pi_list 17 _ upto17) as P17; change (zlen [2; 3; 5; 7; 11; 13; 17]) with 7 in P17; lia).
    destruct (meissel_phi_ok (S (Z.to_nat (pi t3))) n (pi t3) []) as (c & E & _).
    { split; [lia|]. split; [lia|]. pose proof (p_small (pi t3 - 1) ltac:(lia)). pose proof root_le_n. lia. }
    { lia. }
    { apply good_nil. }
    exists c. split; [exact E|].
    assert (JJ : forall j, pi t3 <= j < pi r2 -> 5 <= rd ps j /\ rd ps j - 2 <= n / rd ps j < rd ps j * rd ps j).
    { intros j Hj. assert (rd ps j <= r2) by (apply (pi_rd root ps HP); lia). assert (t3 < rd ps j). { destruct (Z_lt_le_dec t3 (rd ps j)); [assumption|]. assert (j < pi t3) by (apply (pi_rd root ps HP); lia). lia. }
      split; [lia|]. split; [apply (div_ge2 _ s); lia|apply (div_lt_sq _ t3); lia]. }
    rewrite (phi2_ok root ps t HP Ht HT n (pi t3) (pi r2)); [|lia|lia|].
    - f_equal. assert (FP n (pi t3) = pi n - pi t3 + 1 + ((pi t3 - pi r2) * (pi r2 + pi t3 - 1) / 2 + Sum (pi t3) (pi r2) (fun j => pi (n / rd ps j)))) as ->; [|lia]. apply (level2 root ps HP); auto; try lia. split; [lia|]. clear - R2 SS S9. nia.
    - intros j Hj. destruct (JJ j Hj) as (J1 & J2 & J3). split; [lia|]. assert (t3 < rd ps j). { destruct (Z_lt_le_dec t3 (rd ps j)); [assumption|]. assert (j < pi t3) by (apply (pi_rd root ps HP); lia). lia. }
      apply (quot_le_root (rd ps j)); lia.
  Qed.
End meissel.

Lemma meissel_ok fsqrt fcbrt n : floats_exact n fsqrt fcbrt -> exists k, meissel fsqrt fcbrt n = Ret k /\ prime_count_is n k.
Proof.
  intros Fl. unfold meissel. destruct (Z.leb_spec n 1) as [L1|L1]; [exists 0; split; [reflexivity|apply no_primes, L1]|].
  destruct (Z.leb_spec n (last PRIME_LIST 0)) as [L2|L2]; [eexists; split; [reflexivity|apply table_pi, L2]|]. rewrite PRIME_LIST_last in L2.
  assert (E3 : forall z, z ^ 3 = z * z * z) by (intros; ring). assert (E2 : n ^ 2 = n * n) by ring.
  destruct (C04_integer_nth_root 3 (n ^ 2) ltac:(lia) ltac:(lia) ltac:(lia)) as (root & -> & Hr0 & Hr). cbn [bind]. rewrite !E3, E2 in Hr.
  destruct (C04_integer_nth_root 3 n ltac:(lia) ltac:(lia) ltac:(lia)) as (t3 & Et3 & Ht0 & Ht). rewrite !E3 in Ht. pose proof (conj Hr0 Hr) as Hroot. pose proof (conj Ht0 Ht) as Ht3.
  pose proof (t3_big n t3 L2 Ht3) as T9. pose proof (root_t3 n root t3 L2 Hroot Ht3) as RT. pose proof (t3_root n root t3 L2 Hroot Ht3) as TR.
  destruct (pi_table_ok root ltac:(lia)) as (ps & t & -> & HP & Lt & HT). cbn [bind]. rewrite Et3. cbn [bind]. rewrite (tget root t Lt HT t3) by lia. cbn [bind].
  destruct (near_sqrt n ltac:(lia)) as (r2 & Er & R2 & R2'). rewrite C04_integer_nth_root_2, Er. cbn [bind].
  assert (r2 <= root). { pose proof (Z.sqrt_spec n ltac:(lia)) as SS. cbv zeta in SS. unfold Z.succ in SS. set (s := Z.sqrt n) in *. clearbody s. assert (S9 : 900 <= s) by (clear - SS L2; nia). apply (small_le_root n root L2 Hroot); [lia| |lia]. clear - SS R2 S9. nia. }
  assert (0 <= r2) by (pose proof (Z.sqrt_nonneg n); lia). rewrite (tget root t Lt HT r2) by lia. cbn [bind].
  destruct (meissel_value n root t3 fsqrt fcbrt ps t L2 Hroot Ht3 Fl HP Lt HT r2 R2 R2') as (c & E1 & E4). rewrite E1. cbn [bind]. rewrite E4. cbn [bind]. eexists. split; [reflexivity|].
  replace (FP ps n (pi t3) - 1 + pi t3 - (FP ps n (pi t3) - 1 + pi t3 - pi n)) with (pi n) by lia. apply pi_is.
Qed.
