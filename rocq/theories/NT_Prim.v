(** * Exponents of unit groups, primitive roots *)
From Coq Require Import ZArith List Lia Znumtheory Bool Setoid Morphisms.
From Verif Require Import Base NT NT_Euler Arith_Spec Arith_Proofs NT_Cong.
Import ListNotations.
Open Scope Z_scope.

(** n = q^i m with q not dividing m *)
Lemma val_split q n : 2 <= q -> 0 < n -> exists i m, 0 <= i /\ 0 < m /\ n = q ^ i * m /\ ~ (q | m).
Proof.
  intros Hq. pattern n. apply (well_founded_ind (Z.lt_wf 0)). clear n. intros n IH Hn.
  destruct (Zdivide_dec q n) as [(c & E)|N].
  - assert (0 < c) by nia. destruct (IH c ltac:(nia) ltac:(lia)) as (i & m & Hi & Hm & E' & N). exists (i + 1), m. split; [lia|]. split; [exact Hm|]. split; [|exact N].
    rewrite Z.pow_add_r, Z.pow_1_r by lia. rewrite E, E'. ring.
  - exists 0, n. split; [lia|]. split; [exact Hn|]. split; [rewrite Z.pow_0_r; ring|exact N].
Qed.

Lemma coprime_pow_r p m i : prime p -> 0 <= i -> ~ (p | m) -> Z.gcd m (p ^ i) = 1.
Proof. intros Hp Hi N. rewrite Z.gcd_comm. apply gcd_1_pow; [exact Hi|]. apply Zgcd_1_rel_prime, prime_rel_prime; assumption. Qed.

(** An element whose order is the exponent of the group. *)
Lemma exponent_step n g m a : 0 < n -> is_order n g m -> Z.gcd a n = 1 -> ~ cg n (a ^ m) 1 -> exists g' m', is_order n g' m' /\ m < m'.
Proof.
  intros Hn Hg Ga Na. assert (m0 : 0 < m) by (destruct Hg; assumption). destruct (order_exists n a Hn Ga) as (e & He & _). assert (e0 : 0 < e) by (destruct He; assumption).
  assert (ND : ~ (e | m)) by (intros D; apply Na; apply (order_divide n a e); [exact He|lia|exact D]).
  set (d := Z.gcd e m). assert (De : (d | e)) by apply Z.gcd_divide_l. assert (d0 : 0 < d) by (unfold d; pose proof (Z.gcd_nonneg e m); assert (Z.gcd e m <> 0) by (intros X; apply Z.gcd_eq_0_l in X; lia); lia).
  destruct De as (c & Ec). assert (c0 : 0 < c) by nia. assert (c1 : c <> 1). { intros ->. apply ND. rewrite Z.mul_1_l in Ec. rewrite Ec. apply Z.gcd_divide_r. }
  destruct (prime_divisor_exists c ltac:(lia)) as (q & Pq & (c' & Ecq)). pose proof (prime_ge2 q Pq) as q2.
  destruct (val_split q m q2 m0) as (i & m' & Hi & Hm' & Em & Nm). destruct (val_split q e q2 e0) as (j & e' & Hj & He' & Ee & Ne).
  assert (L : i < j).
  { destruct (Z_lt_le_dec i j) as [|L]; [assumption|]. exfalso. assert (D : (q ^ j | d)).
    { apply Z.gcd_greatest; [rewrite Ee; apply Z.divide_factor_l|]. rewrite Em. replace i with (j + (i - j)) by lia. rewrite Z.pow_add_r by lia. rewrite <- Z.mul_assoc. apply Z.divide_factor_l. }
    destruct D as (d1 & Ed). apply Ne. exists (c' * d1). assert (Pj : 0 < q ^ j) by (apply Z.pow_pos_nonneg; lia). apply (Z.mul_reg_l _ _ (q ^ j)); [lia|]. rewrite <- Ee, Ec, Ed, Ecq. ring. }
  exists (g ^ (q ^ i) * a ^ e'), (m' * q ^ j). assert (Pi : 0 < q ^ i) by (apply Z.pow_pos_nonneg; lia). assert (Pj : 0 < q ^ j) by (apply Z.pow_pos_nonneg; lia). split.
  - apply order_mul; [exact Hn| | |apply coprime_pow_r; assumption].
    + apply order_pow; [rewrite Z.mul_comm, <- Em; exact Hg|exact Pi|exact Hm'].
    + apply order_pow; [rewrite <- Ee; exact He|exact He'|exact Pj].
  - rewrite Em. assert (q ^ i < q ^ j) by (apply Z.pow_lt_mono_r; lia). nia.
Qed.

Lemma order_le n g m : 0 < n -> is_order n g m -> m <= totient n.
Proof.
  intros Hn Hg. destruct (order_exists n g Hn (order_unit n g m Hg)) as (d & Hd & L). rewrite (order_unique n g m d Hg Hd). exact L.
Qed.

Lemma exponent_element n : 0 < n -> exists g m, is_order n g m /\ forall a, Z.gcd a n = 1 -> cg n (a ^ m) 1.
Proof.
  intros Hn. assert (G : forall t g m, is_order n g m -> (Z.to_nat (totient n - m) <= t)%nat -> exists g m, is_order n g m /\ forall a, Z.gcd a n = 1 -> cg n (a ^ m) 1).
  { induction t as [t IH] using (well_founded_ind Nat.lt_wf_0). intros g m Hg Ht.
    destruct (Exists_dec (fun a => ~ cg n (a ^ m) 1) (units n)) as [Y|N].
    - intros a. destruct (cg_dec n (a ^ m) 1); [right; tauto|left; assumption].
    - apply Exists_exists in Y as (a & Ha & Na). apply units_In in Ha. destruct (exponent_step n g m a Hn Hg (proj2 Ha) Na) as (g' & m' & Hg' & L).
      pose proof (order_le n g' m' Hn Hg'). apply (IH (Z.to_nat (totient n - m'))%nat ltac:(lia) g' m' Hg' (le_n _)).
    - exists g, m. split; [exact Hg|]. intros a Ga. rewrite <- (cg_mod n a). destruct (cg_dec n ((a mod n) ^ m) 1) as [|Na]; [assumption|]. exfalso. apply N. apply Exists_exists. exists (a mod n). split; [|exact Na].
      apply units_In. split; [apply Z.mod_pos_bound; exact Hn|]. rewrite gcd_mod by exact Hn. exact Ga. }
  apply (G (Z.to_nat (totient n - 1))%nat 1 1); [|apply le_n]. split; [lia|]. split; [rewrite Z.pow_1_l by lia; reflexivity|]. lia.
Qed.

(** A polynomial has at most as many roots modulo a prime as its degree. *)
Fixpoint ev (c : list Z) (x : Z) : Z := match c with [] => 0 | a :: c' => a + x * ev c' x end.
Fixpoint quo (r : Z) (c : list Z) : list Z := match c with [] => [] | [_] => [] | _ :: c' => ev c' r :: quo r c' end.

Lemma quo_ev r x c : (x - r) * ev (quo r c) x = ev c x - ev c r.
Proof.
  induction c as [|a c IH]; [cbn; ring|]. destruct c as [|b c]; [cbn; ring|]. change (quo r (a :: b :: c)) with (ev (b :: c) r :: quo r (b :: c)).
  change (ev (a :: b :: c) x) with (a + x * ev (b :: c) x). change (ev (a :: b :: c) r) with (a + r * ev (b :: c) r). change (ev (ev (b :: c) r :: quo r (b :: c)) x) with (ev (b :: c) r + x * ev (quo r (b :: c)) x).
  rewrite Z.mul_add_distr_l. replace ((x - r) * (x * ev (quo r (b :: c)) x)) with (x * ((x - r) * ev (quo r (b :: c)) x)) by ring. rewrite IH. ring.
Qed.
Lemma quo_length r c : length (quo r c) = pred (length c).
Proof. induction c as [|a [|b c] IH]; [reflexivity|reflexivity|]. change (quo r (a :: b :: c)) with (ev (b :: c) r :: quo r (b :: c)). cbn [length]. rewrite IH. reflexivity. Qed.
Lemma quo_zero p r c : (forall a, In a (quo r c) -> (p | a)) -> (p | ev c r) -> forall a, In a c -> (p | a).
Proof.
  induction c as [|a c IH]; intros H E; [intros x []|]. destruct c as [|b c]; [cbn in E; intros x [<-|[]]; rewrite Z.mul_0_r, Z.add_0_r in E; exact E|].
  change (quo r (a :: b :: c)) with (ev (b :: c) r :: quo r (b :: c)) in H. assert (E' : (p | ev (b :: c) r)) by (apply H; left; reflexivity).
  intros x [<-|Hx]; [|apply IH; [intros y Hy; apply H; right; exact Hy|exact E'|exact Hx]]. change (ev (a :: b :: c) r) with (a + r * ev (b :: c) r) in E.
  apply (Z.divide_add_cancel_r _ (r * ev (b :: c) r)); [apply Z.divide_mul_r; exact E'|rewrite Z.add_comm; exact E].
Qed.

Lemma roots_zero p : prime p -> forall c l, NoDup l -> (forall x, In x l -> 0 <= x < p) -> (forall x, In x l -> (p | ev c x)) -> (length c <= length l)%nat -> forall a, In a c -> (p | a).
Proof.
  intros Hp c. remember (length c) as k eqn:Ek. revert c Ek. induction k as [|k IH]; intros c Ek l ND Hl Hr Hlen; [destruct c; [intros a []|discriminate]|].
  destruct l as [|r l]; [cbn in Hlen; lia|]. inversion ND as [|? ? Nr NDl]; subst. apply (quo_zero p r c); [|apply Hr; left; reflexivity].
  apply (IH (quo r c) ltac:(rewrite quo_length; lia) l NDl); [intros; apply Hl; right; assumption| |cbn in Hlen; lia].
  intros x Hx. assert (D : (p | (x - r) * ev (quo r c) x)). { rewrite quo_ev. apply Z.divide_sub_r; apply Hr; [right; exact Hx|left; reflexivity]. }
  apply prime_mult in D; [|exact Hp]. destruct D as [D|D]; [|exact D]. exfalso. assert (Rx : 0 <= x < p) by (apply Hl; right; exact Hx). assert (Rr : 0 <= r < p) by (apply Hl; left; reflexivity).
  assert (x = r); [|subst; contradiction]. destruct D as (w & Ew). assert (w = 0) by nia. lia.
Qed.

Lemma ev_monomial k x : ev (repeat 0 k ++ [1]) x = x ^ Z.of_nat k.
Proof. induction k as [|k IH]; [cbn [repeat app ev Z.of_nat]; rewrite Z.pow_0_r; ring|]. cbn [repeat app ev]. rewrite IH, Nat2Z.inj_succ, Z.pow_succ_r by lia. ring. Qed.

Lemma power_roots p k b l : prime p -> 0 < k -> NoDup l -> (forall x, In x l -> 0 <= x < p /\ cg p (x ^ k) b) -> Z.of_nat (length l) <= k.
Proof.
  intros Hp Hk ND Hl. destruct (Z_lt_le_dec k (Z.of_nat (length l))) as [L|]; [|assumption]. exfalso. pose proof (prime_ge2 p Hp).
  assert (D : (p | 1)); [|apply Z.divide_1_r_nonneg in D; lia].
  apply (roots_zero p Hp ((- b) :: repeat 0 (Z.to_nat k - 1) ++ [1]) l ND); [intros x Hx; apply Hl; exact Hx| |cbn [length]; rewrite app_length, repeat_length; cbn [length]; lia|right; apply in_or_app; right; left; reflexivity].
  intros x Hx. cbn [ev]. rewrite ev_monomial. replace (x * x ^ Z.of_nat (Z.to_nat k - 1)) with (x ^ k). - apply Hl in Hx as (_ & E). apply cg_div in E. replace (- b + x ^ k) with (x ^ k - b) by ring. exact E.
  - replace k with (Z.succ (Z.of_nat (Z.to_nat k - 1))) at 1 by lia. rewrite Z.pow_succ_r by lia. reflexivity.
Qed.

Lemma totient_prime p : prime p -> totient p = p - 1.
Proof. intros Hp. pose proof (prime_ge2 p Hp). rewrite totient_units, units_prime, zrange_length by (assumption || lia). lia. Qed.

Lemma prim_prime p : prime p -> exists g, is_order p g (p - 1).
Proof.
  intros Hp. pose proof (prime_ge2 p Hp). destruct (exponent_element p ltac:(lia)) as (g & m & Hg & Hm). exists g.
  assert (E : m = p - 1); [|rewrite <- E; exact Hg]. pose proof (order_le p g m ltac:(lia) Hg) as U. rewrite totient_prime in U by exact Hp.
  assert (L : Z.of_nat (length (zrange 1 p)) <= m); [|rewrite zrange_length in L; lia]. apply (power_roots p m 1); [exact Hp|destruct Hg; assumption|apply zrange_NoDup|].
  intros x Hx. apply zrange_In in Hx. split; [lia|]. apply Hm. apply Zgcd_1_rel_prime, rel_prime_sym, prime_rel_prime; [exact Hp|]. intros D. apply Z.divide_pos_le in D; lia.
Qed.

(** (1 + x)^k to third order *)
Lemma binom3 x k : 0 <= k -> exists t w, 2 * t = k * (k - 1) /\ (1 + x) ^ k = 1 + k * x + t * x ^ 2 + x ^ 3 * w.
Proof.
  intros Hk. pattern k. apply natlike_ind; [| |exact Hk].
  - exists 0, 0. split; [reflexivity|]. rewrite Z.pow_0_r. ring.
  - intros j Hj (t & w & Et & E). exists (t + j), (t + w + x * w). split; [nia|]. rewrite Z.pow_succ_r by exact Hj. rewrite E. unfold Z.succ. ring.
Qed.

Lemma lift_odd p s c : prime p -> p <> 2 -> 1 <= s -> exists c', (1 + p ^ s * c) ^ p = 1 + p ^ (s + 1) * (c + p * c').
Proof.
  intros Hp H2 Hs. pose proof (prime_ge2 p Hp). destruct (binom3 (p ^ s * c) p ltac:(lia)) as (t & w & Et & E). rewrite E.
  assert (Dt : (p | t)). { assert (D : (p | 2 * t)) by (rewrite Et; apply Z.divide_factor_l). apply prime_mult in D; [|exact Hp]. destruct D as [D|D]; [|exact D]. exfalso. apply Z.divide_pos_le in D; lia. }
  destruct Dt as (u & ->). replace s with (Z.succ (s - 1)) by lia. set (r := s - 1). assert (r0 : 0 <= r) by (unfold r; lia). rewrite Z.pow_add_r, !Z.pow_succ_r, Z.pow_1_r by lia.
  exists (u * p ^ r * c ^ 2 + p ^ r * p ^ r * c ^ 3 * w). ring.
Qed.

Lemma lift_odd_iter p c : prime p -> p <> 2 -> ~ (p | c) -> forall t, exists c', ~ (p | c') /\ (1 + p * c) ^ (p ^ Z.of_nat t) = 1 + p ^ (Z.of_nat t + 1) * c'.
Proof.
  intros Hp H2 Nc. pose proof (prime_ge2 p Hp). induction t as [|t (c' & Nc' & E)].
  - exists c. split; [exact Nc|]. cbn [Z.of_nat]. rewrite Z.pow_0_r, Z.add_0_l, !Z.pow_1_r. reflexivity.
  - destruct (lift_odd p (Z.of_nat t + 1) c' Hp H2 ltac:(lia)) as (c'' & E2). exists (c' + p * c''). split.
    + intros D. apply Nc'. apply (Z.divide_add_cancel_r _ (p * c'')); [apply Z.divide_factor_l|rewrite Z.add_comm; exact D].
    + rewrite Nat2Z.inj_succ, Z.pow_succ_r by lia. rewrite (Z.mul_comm p (p ^ Z.of_nat t)), Z.pow_mul_r by (try apply Z.pow_nonneg; lia). rewrite E, E2. unfold Z.succ. reflexivity.
Qed.

(** A primitive root g modulo p with g^(p-1) not 1 modulo p^2. *)
Lemma prim_choice p : prime p -> exists g c, is_order p g (p - 1) /\ g ^ (p - 1) = 1 + p * c /\ ~ (p | c).
Proof.
  intros Hp. pose proof (prime_ge2 p Hp). destruct (prim_prime p Hp) as (g & Hg). assert (E1 : cg p (g ^ (p - 1)) 1) by (destruct Hg as (_ & E & _); exact E).
  apply cg_div in E1 as (c & Ec). destruct (Zdivide_dec p c) as [(c1 & E)|N]; [|exists g, c; split; [exact Hg|]; split; [lia|exact N]].
  assert (P : forall k, 0 <= k -> exists w, (g + p) ^ k = g ^ k + k * g ^ (k - 1) * p + p * p * w).
  { intros k Hk. pattern k. apply natlike_ind; [exists 0; rewrite !Z.pow_0_r; ring| |exact Hk]. intros j Hj (w & Ew). rewrite !Z.pow_succ_r by exact Hj. rewrite Ew.
    destruct (Z.eq_dec j 0) as [->|J]; [rewrite Z.pow_0_r in *; exists (w * (g + p)); replace (Z.succ 0 - 1) with 0 by lia; rewrite (Z.pow_neg_r g (0 - 1)) by lia; rewrite Z.pow_0_r; unfold Z.succ; ring|].
    exists (j * g ^ (j - 1) + w * (g + p)). replace (Z.succ j - 1) with (Z.succ (j - 1)) by lia. rewrite Z.pow_succ_r by lia. replace (g ^ j) with (g * g ^ (j - 1)) by (rewrite <- Z.pow_succ_r by lia; f_equal; lia). unfold Z.succ. ring. }
  destruct (P (p - 1) ltac:(lia)) as (w & Ew). exists (g + p), (c + (p - 1) * g ^ (p - 1 - 1) + p * w). split; [|split].
  - apply (order_cg p g); [|exact Hg]. apply cg_div. exists (-1). ring.
  - rewrite Ew. replace (g ^ (p - 1)) with (c * p + 1) by lia. ring.
  - intros D. assert (D2 : (p | g ^ (p - 1 - 1))).
    { apply Z.divide_opp_r. replace (- g ^ (p - 1 - 1)) with ((c + (p - 1) * g ^ (p - 1 - 1) + p * w) - p * (c1 + g ^ (p - 1 - 1) + w)) by (rewrite E; ring). apply Z.divide_sub_r; [exact D|apply Z.divide_factor_l]. }
    assert (G : Z.gcd (g ^ (p - 1 - 1)) p = 1) by (apply gcd_1_pow; [lia|apply (order_unit p g (p - 1) Hg)]).
    assert (X : (p | Z.gcd (g ^ (p - 1 - 1)) p)) by (apply Z.gcd_greatest; [exact D2|apply Z.divide_refl]). rewrite G in X. apply Z.divide_1_r_nonneg in X; lia.
Qed.

Lemma gcd_pred n : Z.gcd n (n - 1) = 1.
Proof. replace (n - 1) with (- (1 - n)) by ring. rewrite Z.gcd_opp_r, Z.gcd_sub_diag_r. apply Z.gcd_1_r. Qed.

Lemma prim_prime_power p k : prime p -> p <> 2 -> 1 <= k -> exists g, is_order (p ^ k) g (p ^ (k - 1) * (p - 1)).
Proof.
  intros Hp H2 Hk. pose proof (prime_ge2 p Hp). destruct (prim_choice p Hp) as (g & c & Hg & Ec & Nc). exists g.
  assert (Pk : 0 < p ^ (k - 1)) by (apply Z.pow_pos_nonneg; lia). assert (Pk' : 0 < p ^ k) by (apply Z.pow_pos_nonneg; lia).
  assert (Dpk : (p | p ^ k)) by (exists (p ^ (k - 1)); replace k with (Z.succ (k - 1)) at 1 by lia; rewrite Z.pow_succ_r by lia; ring).
  apply order_intro; [nia| | |exact Pk'].
  - assert (G : Z.gcd g (p ^ k) = 1) by (rewrite Z.gcd_comm; apply gcd_1_pow; [lia|rewrite Z.gcd_comm; apply (order_unit p g (p - 1) Hg)]).
    pose proof (euler_totient (p ^ k) g Pk' G) as E. rewrite totient_units in E by exact Pk'. rewrite (units_pow p k Hp Hk) in E. exact E.
  - intros q Pq D E. pose proof (prime_ge2 q Pq). apply prime_mult in D; [|exact Pq]. destruct (Z.eq_dec q p) as [->|Hqp].
    + destruct (Z.eq_dec k 1) as [->|K1].
      { destruct D as [D|D]; [cbn [Z.sub Z.add Z.opp Z.pos_sub] in D; rewrite Z.pow_0_r in D; apply Z.divide_1_r_nonneg in D; lia|apply Z.divide_pos_le in D; lia]. }
      replace (p ^ (k - 1) * (p - 1) / p) with ((p - 1) * p ^ Z.of_nat (Z.to_nat (k - 2))) in E.
      * rewrite Z.pow_mul_r in E by (try apply Z.pow_nonneg; lia). rewrite Ec in E. destruct (lift_odd_iter p c Hp H2 Nc (Z.to_nat (k - 2))) as (c' & Nc' & E'). rewrite E' in E. apply cg_div in E. apply Nc'.
        replace (1 + p ^ (Z.of_nat (Z.to_nat (k - 2)) + 1) * c' - 1) with (p ^ (k - 1) * c') in E by (replace (Z.of_nat (Z.to_nat (k - 2)) + 1) with (k - 1) by lia; ring).
        replace (p ^ k) with (p ^ (k - 1) * p) in E by (rewrite <- (Z.pow_1_r p) at 2; rewrite <- Z.pow_add_r by lia; f_equal; lia). apply Z.mul_divide_cancel_l in E; [exact E|lia].
      * replace (p ^ (k - 1)) with (p ^ Z.of_nat (Z.to_nat (k - 2)) * p) by (rewrite <- (Z.pow_1_r p) at 2; rewrite <- Z.pow_add_r by lia; f_equal; lia).
        replace (p ^ Z.of_nat (Z.to_nat (k - 2)) * p * (p - 1)) with ((p - 1) * p ^ Z.of_nat (Z.to_nat (k - 2)) * p) by ring. rewrite Z.div_mul by lia. reflexivity.
    + destruct D as [D|D]; [apply prime_pow_divide in D; [contradiction|assumption|assumption|lia]|]. destruct D as (r & Er). assert (r0 : 0 < r) by nia.
      replace (p ^ (k - 1) * (p - 1) / q) with (p ^ (k - 1) * r) in E by (rewrite Er, Z.mul_assoc, Z.div_mul by lia; reflexivity).
      apply (cg_weaken _ p _ _ Dpk) in E. apply (order_divide p g (p - 1)) in E; [|exact Hg|nia]. apply Z.gauss in E; [apply Z.divide_pos_le in E; nia|].
      apply Z.gcd_unique_alt; [lia|]. intros d. split; [intros D1; split; (apply Z.divide_trans with 1; [exact D1|apply Z.divide_1_l])|]. intros (D1 & D2).
      assert (G : Z.gcd (p - 1) (p ^ (k - 1)) = 1). { rewrite Z.gcd_comm. apply gcd_1_pow; [lia|]. apply gcd_pred. }
      rewrite <- G. apply Z.gcd_greatest; assumption.
Qed.
