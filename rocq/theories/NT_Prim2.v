(** * Powers of two, the Carmichael function, which moduli have primitive roots *)
From Coq Require Import ZArith List Lia Znumtheory Bool Setoid Morphisms.
From Verif Require Import Base NT NT_Euler Arith_Spec Arith_Proofs Factor_Spec Factor_Proofs Div_Proofs Arith_Model NT_Cong NT_Prim.
Import ListNotations.
Open Scope Z_scope.

(** ** Units modulo powers of two *)
Lemma two_lift a : Z.odd a = true -> forall t, exists c, a ^ (2 ^ (Z.of_nat t + 1)) = 1 + 2 ^ (Z.of_nat t + 3) * c.
Proof.
  intros Ho. induction t as [|t (c & E)].
  - apply Z.odd_spec in Ho as (b & ->). assert (Ev : exists e, b * (b + 1) = 2 * e). { destruct (Z.Even_or_Odd b) as [(x & ->)|(x & ->)]; [exists (x * (2 * x + 1))|exists ((2 * x + 1) * (x + 1))]; ring. }
    destruct Ev as (e & Ee). exists e. change (2 ^ (Z.of_nat 0 + 1)) with 2. change (2 ^ (Z.of_nat 0 + 3)) with 8. nia.
  - exists (c + 2 ^ (Z.of_nat t + 2) * c * c). rewrite Nat2Z.inj_succ. replace (2 ^ (Z.succ (Z.of_nat t) + 1)) with (2 ^ (Z.of_nat t + 1) * 2) by (rewrite <- (Z.pow_1_r 2) at 2; rewrite <- Z.pow_add_r by lia; f_equal; lia).
    rewrite Z.pow_mul_r by (try apply Z.pow_nonneg; lia). rewrite E. replace (2 ^ (Z.succ (Z.of_nat t) + 3)) with (2 * 2 ^ (Z.of_nat t + 3)) by (rewrite <- Z.pow_succ_r by lia; f_equal; lia).
    replace (2 ^ (Z.of_nat t + 3)) with (2 * 2 ^ (Z.of_nat t + 2)) by (rewrite <- Z.pow_succ_r by lia; f_equal; lia). rewrite Z.pow_2_r. ring.
Qed.

Lemma five_lift : forall t, exists c, Z.odd c = true /\ 5 ^ (2 ^ Z.of_nat t) = 1 + 2 ^ (Z.of_nat t + 2) * c.
Proof.
  induction t as [|t (c & Ho & E)]; [exists 1; split; reflexivity|].
  exists (c + 2 * (2 ^ Z.of_nat t * c * c)). split; [rewrite Z.odd_add, Ho, Z.odd_mul; reflexivity|]. rewrite Nat2Z.inj_succ. rewrite Z.pow_succ_r by lia. rewrite (Z.mul_comm 2), Z.pow_mul_r by (try apply Z.pow_nonneg; lia). rewrite E, Z.pow_2_r.
  replace (2 ^ (Z.succ (Z.of_nat t) + 2)) with (2 ^ Z.of_nat t * 8) by (change 8 with (2 ^ 3); rewrite <- Z.pow_add_r by lia; f_equal; lia). replace (2 ^ (Z.of_nat t + 2)) with (2 ^ Z.of_nat t * 4) by (change 4 with (2 ^ 2); rewrite <- Z.pow_add_r by lia; reflexivity). ring.
Qed.

Lemma odd_of_gcd a k : 1 <= k -> Z.gcd a (2 ^ k) = 1 -> Z.odd a = true.
Proof.
  intros Hk G. destruct (Z.odd a) eqn:O; [reflexivity|]. exfalso. rewrite <- Z.negb_even in O. apply negb_false_iff in O. apply Z.even_spec in O as (b & ->).
  assert (D : (2 | Z.gcd (2 * b) (2 ^ k))). { apply Z.gcd_greatest; [apply Z.divide_factor_l|]. replace k with (Z.succ (k - 1)) by lia. rewrite Z.pow_succ_r by lia. apply Z.divide_factor_l. }
  rewrite G in D. apply Z.divide_1_r_nonneg in D; lia.
Qed.

Lemma two_exponent k a : 3 <= k -> Z.gcd a (2 ^ k) = 1 -> cg (2 ^ k) (a ^ (2 ^ (k - 2))) 1.
Proof.
  intros Hk G. apply odd_of_gcd in G; [|lia]. destruct (two_lift a G (Z.to_nat (k - 3))) as (c & E). replace (Z.of_nat (Z.to_nat (k - 3)) + 1) with (k - 2) in E by lia. replace (Z.of_nat (Z.to_nat (k - 3)) + 3) with k in E by lia.
  rewrite E. apply cg_div. exists c. ring.
Qed.

Lemma five_order k : 3 <= k -> is_order (2 ^ k) 5 (2 ^ (k - 2)).
Proof.
  intros Hk. assert (0 < 2 ^ k) by (apply Z.pow_pos_nonneg; lia). apply order_intro; [apply Z.pow_pos_nonneg; lia| | |assumption].
  - apply two_exponent; [exact Hk|]. rewrite Z.gcd_comm. apply gcd_1_pow; [lia|reflexivity].
  - intros q Pq D E. apply (prime_pow_divide q 2) in D; [|exact Pq|apply prime_2|lia]. subst q. replace (2 ^ (k - 2) / 2) with (2 ^ Z.of_nat (Z.to_nat (k - 3))) in E.
    + destruct (five_lift (Z.to_nat (k - 3))) as (c & Ho & Ec). rewrite Ec in E. apply cg_div in E. replace (1 + 2 ^ (Z.of_nat (Z.to_nat (k - 3)) + 2) * c - 1) with (2 ^ (k - 1) * c) in E by (replace (Z.of_nat (Z.to_nat (k - 3)) + 2) with (k - 1) by lia; ring).
      replace (2 ^ k) with (2 ^ (k - 1) * 2) in E by (rewrite <- (Z.pow_1_r 2) at 2; rewrite <- Z.pow_add_r by lia; f_equal; lia). assert (0 < 2 ^ (k - 1)) by (apply Z.pow_pos_nonneg; lia). apply Z.mul_divide_cancel_l in E; [|lia]. destruct E as (x & Ex). rewrite Ex, Z.odd_mul in Ho. rewrite andb_false_r in Ho. discriminate.
    + replace (2 ^ (k - 2)) with (2 ^ Z.of_nat (Z.to_nat (k - 3)) * 2) by (rewrite <- (Z.pow_1_r 2) at 2; rewrite <- Z.pow_add_r by lia; f_equal; lia). rewrite Z.div_mul by lia. reflexivity.
Qed.

(** ** The terms of the Carmichael function *)
Lemma term_ok p e : prime p -> 1 <= e -> 0 < carmichael_term (p, e) /\ (forall a, Z.gcd a (p ^ e) = 1 -> cg (p ^ e) (a ^ carmichael_term (p, e)) 1) /\ exists g, is_order (p ^ e) g (carmichael_term (p, e)).
Proof.
  intros Hp He. pose proof (prime_ge2 p Hp). assert (Pe : 0 < p ^ e) by (apply Z.pow_pos_nonneg; lia). unfold carmichael_term. destruct (Z.eqb_spec p 2) as [->|N]; cbn [negb].
  - destruct (Z.leb_spec e 2) as [L|L].
    + assert (C : e = 1 \/ e = 2) by lia. destruct C as [-> | ->].
      * change (Z.shiftl 1 (1 - 1)) with 1. change (2 ^ 1) with 2. split; [lia|]. split; [|exists 1; split; [lia|]; split; [reflexivity|lia]]. intros a G. rewrite Z.pow_1_r. apply (odd_of_gcd a 1) in G; [|lia]. apply Z.odd_spec in G as (b & ->). apply cg_div. exists b. ring.
      * change (Z.shiftl 1 (2 - 1)) with 2. change (2 ^ 2) with 4. split; [lia|]. split.
        { intros a G. apply (odd_of_gcd a 2) in G; [|lia]. apply Z.odd_spec in G as (b & ->). apply cg_div. exists (b * (b + 1)). rewrite Z.pow_2_r. ring. }
        exists 3. split; [lia|]. split; [constructor; reflexivity|]. intros k Hk. replace k with 1 by lia. intros (E). discriminate E.
    + rewrite Z.shiftl_1_l. split; [apply Z.pow_pos_nonneg; lia|]. split; [intros a; apply two_exponent; lia|exists 5; apply five_order; lia].
  - split; [assert (0 < p ^ (e - 1)) by (apply Z.pow_pos_nonneg; lia); nia|]. split; [|apply prim_prime_power; assumption].
    intros a G. pose proof (euler_totient (p ^ e) a Pe G) as E. rewrite totient_units, (units_pow p e Hp He) in E by exact Pe. exact E.
Qed.

Lemma gcd_1_div a n m : (m | n) -> Z.gcd a n = 1 -> Z.gcd a m = 1.
Proof.
  intros D G. apply Z.divide_1_r_nonneg; [apply Z.gcd_nonneg|]. rewrite <- G. apply Z.gcd_greatest; [apply Z.gcd_divide_l|]. apply (Z.divide_trans _ m); [apply Z.gcd_divide_r|exact D].
Qed.

(** ** Orders and the Chinese remainder theorem *)
Lemma crt_order a b x d : 0 < a -> 0 < b -> Z.gcd a b = 1 -> is_order a x d -> exists y, cg a y x /\ cg b y 1 /\ is_order (a * b) y d.
Proof.
  intros Ha Hb G (Hd & H1 & HL). destruct (crt_exists a b (x mod a) (1 mod b) Ha Hb G) as (y & Hy). rewrite !Zmod_mod in Hy.
  exists y. assert (Ya : cg a y x) by (constructor; tauto). assert (Yb : cg b y 1) by (constructor; tauto). split; [exact Ya|]. split; [exact Yb|]. split; [exact Hd|]. split.
  - apply cg_crt; [exact G|rewrite Ya; exact H1|apply cg_pow_1; [lia|exact Yb]].
  - intros k Hk E. apply (HL k Hk). rewrite <- Ya. apply (cg_weaken (a * b)); [apply Z.divide_factor_l|exact E].
Qed.

Lemma carmichael_fac n l : factorization n l -> 2 <= n -> 
  (forall a, Z.gcd a n = 1 -> forall m, 0 <= m -> (forall pe, In pe l -> (carmichael_term pe | m)) -> cg n (a ^ m) 1) /\
  (forall k, 0 < k -> (forall a, Z.gcd a n = 1 -> cg n (a ^ k) 1) -> forall pe, In pe l -> (carmichael_term pe | k)).
Proof.
  intros F _. revert n F. induction l as [|(p, e) l IH]; intros n F.
  - assert (n = 1) as -> by (destruct F as (_ & _ & V); symmetry; exact V). split; [|intros k _ _ pe []]. intros. constructor. rewrite !Z.mod_1_r. reflexivity.
  - destruct (factorization_cons n p e l F) as (Hp & He & En & Fl & Gt). set (m := fac_value l) in *. assert (Pe : 0 < p ^ e) by (apply Z.pow_pos_nonneg; [pose proof (prime_ge2 p Hp)|]; lia). pose proof (factorization_pos m l Fl) as Pm.
    assert (G : Z.gcd (p ^ e) m = 1) by (apply gcd_1_pow; [lia|apply (coprime_rest p l Hp Fl Gt)]).
    destruct (term_ok p e Hp He) as (T0 & T1 & g & Tg). destruct (IH m Fl) as (I1 & I2). rewrite En. split.
    + intros a Ga k Hk Hd. assert (Ga1 : Z.gcd a (p ^ e) = 1). { apply (gcd_1_div a (p ^ e * m)); [apply Z.divide_factor_l|exact Ga]. }
      assert (Ga2 : Z.gcd a m = 1). { apply (gcd_1_div a (p ^ e * m)); [apply Z.divide_factor_r|exact Ga]. }
      apply cg_crt; [exact G| |apply I1; [exact Ga2|exact Hk|intros pe Hpe; apply Hd; right; exact Hpe]].
      destruct (Hd (p, e) (or_introl eq_refl)) as (c & Ec). assert (0 <= c) by nia. rewrite Ec, (Z.mul_comm c), Z.pow_mul_r by lia. apply cg_pow_1; [assumption|]. apply T1. exact Ga1.
    + intros k Hk Hall pe [<-|Hin].
      * destruct (crt_order (p ^ e) m g (carmichael_term (p, e)) Pe ltac:(lia) G Tg) as (y & _ & _ & Hy). apply (order_divide (p ^ e * m) y); [exact Hy|lia|]. apply Hall. apply (order_unit _ _ _ Hy).
      * apply I2; [exact Hk| |exact Hin]. intros a Ga. destruct (crt_exists m (p ^ e) (a mod m) (1 mod p ^ e) ltac:(lia) Pe ltac:(rewrite Z.gcd_comm; exact G)) as (y & Hy). rewrite !Zmod_mod in Hy.
        assert (Ya : cg m y a) by (constructor; tauto). assert (Yb : cg (p ^ e) y 1) by (constructor; tauto). rewrite <- Ya. apply (cg_weaken (p ^ e * m)); [apply Z.divide_factor_r|]. apply Hall.
        rewrite Z.gcd_comm. apply gcd_1_mul; rewrite Z.gcd_comm; [rewrite (cg_gcd _ _ _ Yb); apply Z.gcd_1_l|rewrite (cg_gcd _ _ _ Ya); exact Ga].
Qed.

(** ** Moduli with a primitive root *)
Lemma totient_mul a b : 0 < a -> 0 < b -> Z.gcd a b = 1 -> totient (a * b) = totient a * totient b.
Proof. intros Ha Hb G. rewrite !totient_units by nia. rewrite units_mul by assumption. lia. Qed.
Lemma totient_pow p e : prime p -> 1 <= e -> totient (p ^ e) = p ^ (e - 1) * (p - 1).
Proof. intros Hp He. rewrite totient_units by (apply Z.pow_pos_nonneg; [pose proof (prime_ge2 p Hp)|]; lia). apply units_pow; assumption. Qed.

Lemma totient_even n : 2 < n -> (2 | totient n).
Proof.
  intros Hn. assert (O : is_order n (-1) 2). { split; [lia|]. split; [apply cg_div; exists 0; ring|]. intros k Hk. replace k with 1 by lia. intros E. apply cg_div in E. rewrite Z.pow_1_r in E. apply Z.divide_opp_r in E. apply Z.divide_pos_le in E; lia. }
  apply (order_divide n (-1) 2 (totient n) O); [pose proof (totient_pos n); lia|]. apply euler_totient; [lia|]. apply (order_unit n (-1) 2 O).
Qed.

Lemma prim_split a b x : 2 < a -> 2 < b -> Z.gcd a b = 1 -> ~ is_order (a * b) x (totient (a * b)).
Proof.
  intros Ha Hb G (Hd & H1 & HL). pose proof (totient_mul a b ltac:(lia) ltac:(lia) G) as T. pose proof (totient_pos a ltac:(lia)) as Pa. pose proof (totient_pos b ltac:(lia)) as Pb.
  destruct (totient_even a Ha) as (u & Eu). destruct (totient_even b Hb) as (v & Ev). pose proof (cg_unit (a * b) x (totient (a * b)) Hd H1) as Gx.
  assert (Ga : Z.gcd x a = 1). { apply (gcd_1_div x (a * b)); [apply Z.divide_factor_l|exact Gx]. }
  assert (Gb : Z.gcd x b = 1). { apply (gcd_1_div x (a * b)); [apply Z.divide_factor_r|exact Gx]. }
  apply (HL (u * 2 * v)); [nia|]. apply cg_crt; [exact G| |].
  - rewrite <- Eu, Z.pow_mul_r by nia. apply cg_pow_1; [nia|]. apply euler_totient; [lia|exact Ga].
  - replace (u * 2 * v) with (totient b * u) by nia. rewrite Z.pow_mul_r by nia. apply cg_pow_1; [nia|]. apply euler_totient; [lia|exact Gb].
Qed.

Lemma prim_two k x : 3 <= k -> ~ is_order (2 ^ k) x (totient (2 ^ k)).
Proof.
  intros Hk (Hd & H1 & HL). pose proof (cg_unit _ x _ Hd H1) as G. rewrite (totient_pow 2 k prime_2) in * by lia. apply (HL (2 ^ (k - 2))); [|apply two_exponent; [exact Hk|exact G]].
  replace (k - 1) with (Z.succ (k - 2)) by lia. rewrite Z.pow_succ_r by lia. assert (0 < 2 ^ (k - 2)) by (apply Z.pow_pos_nonneg; lia). lia.
Qed.

(** A multiple of four above four. *)
Lemma prim_four n x : 4 < n -> (4 | n) -> ~ is_order n x (totient n).
Proof.
  intros Hn (c & Ec). destruct (val_split 2 n ltac:(lia) ltac:(lia)) as (i & m & Hi & Hm & E & N).
  assert (i2 : 2 <= i). { destruct (Z_lt_le_dec i 2) as [L|]; [|assumption]. exfalso. apply N. assert (C : i = 0 \/ i = 1) by lia. destruct C as [-> | ->]; [rewrite Z.pow_0_r in E; exists (2 * c); lia|rewrite Z.pow_1_r in E; exists c; lia]. }
  assert (P4 : 4 <= 2 ^ i) by (change 4 with (2 ^ 2); apply Z.pow_le_mono_r; lia). destruct (Z.eq_dec m 1) as [->|M1].
  - rewrite Z.mul_1_r in E. rewrite E. apply prim_two. destruct (Z.eq_dec i 2) as [->|]; [change (2 ^ 2) with 4 in E; lia|lia].
  - rewrite E. apply prim_split; [lia| |rewrite Z.gcd_comm; apply coprime_pow_r; [apply prime_2|lia|exact N]]. destruct (Z.eq_dec m 2) as [->|]; [exfalso; apply N; exists 1; reflexivity|lia].
Qed.

(** Twice an odd prime power. *)
Lemma prim_double p k : prime p -> p <> 2 -> 1 <= k -> exists g, is_order (2 * p ^ k) g (totient (2 * p ^ k)).
Proof.
  intros Hp H2 Hk. pose proof (prime_ge2 p Hp). assert (P : 0 < p ^ k) by (apply Z.pow_pos_nonneg; lia). destruct (prim_prime_power p k Hp H2 Hk) as (g & Hg).
  assert (G : Z.gcd (p ^ k) 2 = 1). { rewrite Z.gcd_comm. apply coprime_pow_r; [exact Hp|lia|]. intros D. apply Z.divide_pos_le in D; lia. }
  destruct (crt_order (p ^ k) 2 g _ P ltac:(lia) G Hg) as (y & _ & _ & Hy). exists y. rewrite (Z.mul_comm 2), totient_mul by (assumption || lia). change (totient 2) with 1. rewrite Z.mul_1_r, totient_pow by assumption. exact Hy.
Qed.
