(** * The compositeness tests reject an odd composite number for half of the bases *)
From Coq Require Import ZArith List Lia Znumtheory Zpow_facts Bool Setoid Morphisms.
From Verif Require Import Base Py NT NT_Euler Arith_Spec Arith_Proofs NT_Cong NT_QR Lists2 Factor_Spec Tab_Proofs Core_Model QR_Spec QR_Proofs Sqrt_Model Sqrt_Proofs QR_Props Primality_Model Primality_Proofs PTest_Spec PTest_Model.
Import ListNotations.
Open Scope Z_scope.

Lemma cg_one n x : 2 <= n -> (x mod n = 1 <-> cg n x 1).
Proof. intros H. rewrite cg_iff, (Z.mod_small 1) by lia. reflexivity. Qed.
Lemma cg_m1 n x : 2 <= n -> (x mod n = n - 1 <-> cg n x (-1)).
Proof. intros H. rewrite cg_iff. replace ((-1) mod n) with (n - 1); [reflexivity|]. apply Z.mod_unique with (-1); lia. Qed.
Lemma div_cg1 n x : (n | x - 1) <-> cg n x 1.
Proof. rewrite cg_div. reflexivity. Qed.
Lemma div_cgm1 n x : (n | x + 1) <-> cg n x (-1).
Proof. rewrite cg_div. replace (x - -1) with (x + 1) by lia. reflexivity. Qed.

Lemma split_unique s t s' t' : 0 <= s -> 0 <= s' -> Z.odd t = true -> Z.odd t' = true -> 2 ^ s * t = 2 ^ s' * t' -> s = s' /\ t = t'.
Proof.
  assert (W : forall s t s' t', 0 <= s <= s' -> Z.odd t = true -> 2 ^ s * t = 2 ^ s' * t' -> s = s' /\ t = t').
  { intros a x b y Hab Ox E. replace b with (a + (b - a)) in E by lia. rewrite Z.pow_add_r, <- Z.mul_assoc in E by lia.
    apply Z.mul_reg_l in E; [|pose proof (Z.pow_pos_nonneg 2 a); lia]. destruct (Z.eq_dec a b) as [->|N]; [split; [reflexivity|]; rewrite E, Z.sub_diag, Z.pow_0_r; lia|].
    exfalso. rewrite E, Z.odd_mul, Z.odd_pow in Ox by lia. discriminate. }
  intros H H' O O' E. destruct (Z_le_gt_dec s s'); [apply W; [lia|exact O|exact E]|]. destruct (W s' t' s t) as (-> & ->); [lia|exact O'|symmetry; exact E|auto].
Qed.

(** ** What miller_rabin computes *)
Lemma mr_loop_spec n : 2 <= n -> forall k b, mr_loop n k b = true <-> exists i, 0 < i <= Z.of_nat k /\ cg n (b ^ (2 ^ i)) (-1).
Proof.
  intros Hn. induction k as [|k IH]; intros b; cbn [mr_loop].
  - split; [discriminate|]. intros (i & Hi & _). lia.
  - assert (E2 : cg n (b ^ (2 ^ 1)) ((b * b) mod n)) by (rewrite cg_mod; change (2 ^ 1) with 2; rewrite Z.pow_2_r; reflexivity).
    assert (Sh : forall j, 0 <= j -> cg n (((b * b) mod n) ^ (2 ^ j)) (b ^ (2 ^ (j + 1)))).
    { intros j Hj. rewrite <- E2, <- Z.pow_mul_r by (try apply Z.pow_nonneg; lia). rewrite Z.pow_add_r, (Z.mul_comm (2 ^ j)) by lia. reflexivity. }
    destruct (Z.eqb_spec ((b * b) mod n) (n - 1)) as [E|N].
    + split; [intros _|reflexivity]. exists 1. split; [lia|]. rewrite E2. apply cg_m1; [exact Hn|]. rewrite Z.mod_mod by lia. exact E.
    + rewrite IH. split; intros (i & Hi & C).
      * exists (i + 1). split; [lia|]. rewrite <- Sh by lia. exact C.
      * destruct (Z.eq_dec i 1) as [->|Ni]; [exfalso; apply N; rewrite <- (Z.mod_mod (b * b) n) by lia; apply cg_m1; [exact Hn|]; rewrite <- E2; exact C|].
        exists (i - 1). split; [lia|]. rewrite Sh by lia. replace (i - 1 + 1) with i by lia. exact C.
Qed.

Lemma miller_rabin_spec n a : 2 <= n -> exists b, miller_rabin n a = Ret b /\ (b = true <-> strong_probable_prime n a).
Proof.
  intros Hn. unfold miller_rabin. destruct (split2_ok (n - 1) ltac:(lia)) as (s & t & -> & Hs & Em & Ht). cbn [bind].
  assert (Ot : Z.odd t = true) by (rewrite Zmod_odd in Ht; destruct (Z.odd t); [reflexivity|discriminate]).
  assert (Ht0 : 0 <= t) by (pose proof (Z.pow_pos_nonneg 2 s); nia).
  unfold pow3. destruct (Z.eqb_spec n 0); [lia|]. cbn [bind]. rewrite Zpow_mod_correct by lia. set (b := a ^ t mod n).
  assert (Eb : cg n b (a ^ t)) by apply cg_mod.
  assert (Q : strong_probable_prime n a <-> cg n (a ^ t) 1 \/ cg n (a ^ t) (-1) \/ exists i, 0 < i < s /\ cg n (a ^ (2 ^ i * t)) (-1)).
  { split.
    - intros (s' & t' & Hs' & Ot' & E & H). destruct (split_unique s t s' t' Hs Hs' Ot Ot' ltac:(lia)) as (<- & <-). rewrite div_cg1, div_cgm1 in H. destruct H as [H|[H|(i & Hi & H)]]; [tauto|tauto|]. rewrite div_cgm1 in H. eauto.
    - intros H. exists s, t. split; [exact Hs|]. split; [exact Ot|]. split; [exact Em|]. rewrite div_cg1, div_cgm1. destruct H as [H|[H|(i & Hi & H)]]; [tauto|tauto|]. rewrite <- div_cgm1 in H. eauto. }
  enough (K : exists c, (if (b =? 1) || (b =? n - 1) then Ret true else Ret (mr_loop n (Z.to_nat (s - 1)) b)) = Ret c /\ (c = true <-> cg n (a ^ t) 1 \/ cg n (a ^ t) (-1) \/ exists i, 0 < i < s /\ cg n (a ^ (2 ^ i * t)) (-1)))
    by (destruct K as (c & E & H); exists c; split; [exact E|rewrite Q; exact H]).
  clear Q.
  assert (B1 : (b =? 1) = true <-> cg n (a ^ t) 1) by (rewrite Z.eqb_eq; apply cg_one, Hn).
  assert (B2 : (b =? n - 1) = true <-> cg n (a ^ t) (-1)) by (rewrite Z.eqb_eq; apply cg_m1, Hn).
  destruct (b =? 1); [exists true; split; [reflexivity|]; tauto|]. destruct (b =? n - 1); [exists true; split; [reflexivity|]; tauto|]. cbn [orb].
  eexists. split; [reflexivity|]. rewrite mr_loop_spec by exact Hn.
  assert (Pw : forall i, 0 <= i -> cg n (b ^ (2 ^ i)) (a ^ (2 ^ i * t))) by (intros i Hi; rewrite Eb, <- Z.pow_mul_r by (try apply Z.pow_nonneg; lia); rewrite Z.mul_comm; reflexivity).
  split.
  - intros (i & Hi & C). right; right. exists i. split; [lia|]. rewrite <- Pw by lia. exact C.
  - intros [H|[H|(i & Hi & H)]]; [apply B1 in H; discriminate|apply B2 in H; discriminate|]. exists i. split; [lia|]. rewrite Pw by lia. exact H.
Qed.

(** ** Counting *)
Lemma half n b (P : Z -> Prop) L : 1 < n -> Z.gcd b n = 1 -> (forall a, P a -> Z.gcd a n = 1) -> (forall a, P a -> ~ P ((b * a) mod n)) ->
  NoDup L -> (forall a, In a L -> 0 <= a < n /\ P a) -> 2 * Z.of_nat (length L) <= totient n.
Proof.
  intros Hn Gb U R ND HL. rewrite totient_units by lia.
  assert (N2 : NoDup (L ++ map (fun a => (b * a) mod n) L)).
  { apply NoDup_app_intro; [exact ND| |].
    - clear R. induction ND as [|x l Nx ND IH]; [constructor|]. cbn [map]. constructor; [|apply IH; intros; apply HL; right; assumption].
      intros Q. apply in_map_iff in Q as (y & E & Hy). destruct (HL x (or_introl eq_refl)) as (Bx & _). destruct (HL y (or_intror Hy)) as (By & _).
      apply mod_cancel in E; [|lia|exact Gb]. rewrite !Z.mod_small in E by lia. subst. contradiction.
    - intros x Hx Q. apply in_map_iff in Q as (y & E & Hy). apply (R y); [apply HL, Hy|]. rewrite E. apply HL, Hx. }
  assert (Inc : incl (L ++ map (fun a => (b * a) mod n) L) (units n)).
  { intros x Hx. apply units_In. apply in_app_or in Hx as [Hx|Hx]; [destruct (HL x Hx) as (B & Px); split; [exact B|apply U, Px]|].
    apply in_map_iff in Hx as (y & <- & Hy). split; [apply Z.mod_pos_bound; lia|]. rewrite gcd_mod by lia. apply gcd_1_mul; [exact Gb|apply U, HL, Hy]. }
  pose proof (NoDup_incl_length N2 Inc) as E. rewrite app_length, map_length in E. lia.
Qed.

(** ** Two kinds of odd composite numbers *)
Lemma composite_cases n : 1 < n -> ~ prime n -> exists p m, prime p /\ n = p * m /\ 1 < m /\ ((p | m) \/ Z.gcd p m = 1).
Proof.
  intros Hn NP. destruct (prime_divisor_exists n ltac:(lia)) as (p & Pp & (m & E)). pose proof (prime_ge2 p Pp). exists p, m. split; [exact Pp|]. split; [lia|].
  assert (m <> 1) by (intros ->; apply NP; rewrite E, Z.mul_1_l; exact Pp). split; [nia|]. destruct (Zdivide_dec p m) as [D|D]; [left; exact D|right]. apply Zgcd_1_rel_prime, prime_rel_prime; assumption.
Qed.

Lemma square_witness p m : 1 < p -> 1 < m -> (p | m) -> exists b, Z.gcd b (p * m) = 1 /\ ~ cg (p * m) (b ^ (p * m - 1)) 1.
Proof.
  intros Hp Hm (c & E). set (n := p * m). assert (Hn : m < n) by (unfold n; nia). exists (1 + m).
  assert (Pw : forall k, 0 <= k -> cg n ((1 + m) ^ k) (1 + k * m)).
  { intros k Hk. pattern k. apply natlike_ind; [reflexivity| |exact Hk]. intros j Hj IH. rewrite Z.pow_succ_r, IH by exact Hj. apply cg_div. unfold n. exists (j * c). assert (M2 : m * m = c * (p * m)) by (rewrite E at 1; ring). unfold Z.succ. transitivity (j * (m * m)); [ring|]. rewrite M2. ring. }
  split.
  - apply (cg_unit n (1 + m) n); [lia|]. rewrite Pw by lia. apply cg_div. exists m. ring.
  - intros Q. rewrite Pw in Q by lia. apply cg_div in Q. assert (D : (n | m)). { destruct Q as (q & Q). exists (m - q). lia. } apply Z.divide_pos_le in D; lia.
Qed.

Lemma cg_pm n e : 2 < n -> ~ (cg n e 1 /\ cg n e (-1)).
Proof. intros Hn (H1 & H2). rewrite H1 in H2. apply cg_div in H2. apply Z.divide_pos_le in H2; lia. Qed.

Lemma cg_pow_mul n a b k : 0 <= k -> cg n ((a * b) mod n) (a * b) /\ cg n (((a * b) mod n) ^ k) (a ^ k * b ^ k).
Proof. intros Hk. split; [apply cg_mod|]. rewrite cg_mod, Z.pow_mul_l. reflexivity. Qed.

Lemma glue p m x : 0 < p -> 0 < m -> Z.gcd p m = 1 -> exists b, cg p b x /\ cg m b 1.
Proof.
  intros Hp Hm G. destruct (crt_exists p m (x mod p) (1 mod m) Hp Hm G) as (y & Hy). exists y. rewrite !cg_iff. rewrite !Zmod_mod in Hy. tauto.
Qed.

Lemma largest (P : Z -> Prop) (D : forall i, {P i} + {~ P i}) s : 0 < s -> P 0 -> exists i, 0 <= i < s /\ P i /\ forall j, i < j < s -> ~ P j.
Proof.
  intros Hs P0. assert (G : forall k, 0 <= k -> exists i, 0 <= i < k + 1 /\ P i /\ forall j, i < j < k + 1 -> ~ P j); [|destruct (G (s - 1) ltac:(lia)) as (i & H); replace (s - 1 + 1) with s in H by lia; exists i; exact H].
  intros k Hk. pattern k. apply natlike_ind; [|clear k Hk; intros k Hk (i & Hi & Pi & M)|exact Hk].
  - exists 0. split; [lia|]. split; [exact P0|]. intros; lia.
  - destruct (D (k + 1)) as [Y|N]; [exists (k + 1); split; [lia|]; split; [exact Y|]; intros; lia|]. exists i. split; [lia|]. split; [exact Pi|]. intros j Hj Q. destruct (Z.eq_dec j (k + 1)) as [->|]; [contradiction|]. apply (M j); [lia|exact Q].
Qed.

(** ** Strong probable primes *)
Section Strong.
  Context (n s t : Z) (Hn : 1 < n) (On : Z.odd n = true) (Hs : 0 <= s) (Ot : Z.odd t = true) (Em : n - 1 = 2 ^ s * t).

  Lemma s_pos : 0 < s.
  Proof using Hn On Hs Ot Em.
    destruct (Z.eq_dec s 0) as [E|N]; [|lia]. exfalso. rewrite E, Z.pow_0_r, Z.mul_1_l in Em. rewrite <- Em, Z.odd_sub, On in Ot. discriminate.
  Qed.
  Lemma t_pos : 0 < t.
  Proof using Hn Hs Em. pose proof (Z.pow_pos_nonneg 2 s). nia. Qed.

  Definition liar (a : Z) : Prop := cg n (a ^ t) 1 \/ exists i, 0 <= i < s /\ cg n (a ^ (2 ^ i * t)) (-1).

  Lemma spp_liar a : strong_probable_prime n a <-> liar a.
  Proof using Hn On Hs Ot Em.
    pose proof s_pos as Ps. unfold liar. split.
    - intros (s' & t' & Hs' & Ot' & E & H). destruct (split_unique s t s' t' Hs Hs' Ot Ot' ltac:(lia)) as (<- & <-). rewrite div_cg1, div_cgm1 in H.
      destruct H as [H|[H|(i & Hi & H)]]; [left; exact H|right; exists 0; rewrite Z.pow_0_r, Z.mul_1_l; split; [lia|exact H]|]. rewrite div_cgm1 in H. right. exists i. split; [lia|exact H].
    - intros H. exists s, t. split; [exact Hs|]. split; [exact Ot|]. split; [exact Em|]. rewrite div_cg1, div_cgm1. destruct H as [H|(i & Hi & H)]; [tauto|].
      destruct (Z.eq_dec i 0) as [->|N]; [rewrite Z.pow_0_r, Z.mul_1_l in H; tauto|]. right; right. exists i. rewrite div_cgm1. split; [lia|exact H].
  Qed.

  (** Squaring -1. *)
  Lemma double a i j : 0 <= i < j -> cg n (a ^ (2 ^ i * t)) (-1) -> cg n (a ^ (2 ^ j * t)) 1.
  Proof using Hn Hs Em.
    intros H C. pose proof t_pos. replace (2 ^ j * t) with (2 ^ i * t * 2 * 2 ^ (j - i - 1)).
    - pose proof (Z.pow_pos_nonneg 2 i). pose proof (Z.pow_pos_nonneg 2 (j - i - 1)). rewrite (Z.pow_mul_r a (2 ^ i * t * 2)), (Z.pow_mul_r a (2 ^ i * t)) by nia. rewrite C. change ((-1) ^ 2) with 1. rewrite Z.pow_1_l by lia. reflexivity.
    - replace j with (i + 1 + (j - i - 1)) at 2 by lia. rewrite !Z.pow_add_r by lia. ring.
  Qed.
  Lemma once a j : 0 <= j -> cg n (a ^ t) 1 -> cg n (a ^ (2 ^ j * t)) 1.
  Proof using Hn Hs Em. intros H C. pose proof t_pos. pose proof (Z.pow_pos_nonneg 2 j). rewrite Z.mul_comm, Z.pow_mul_r, C, Z.pow_1_l by lia. reflexivity. Qed.

  Lemma liar_fermat a : liar a -> cg n (a ^ (n - 1)) 1.
  Proof using Hn Hs Em. rewrite Em. intros [H|(i & Hi & H)]; [apply once; assumption|apply (double a i s); assumption]. Qed.

  Lemma last_minus : exists i, 0 <= i < s /\ (exists a, cg n (a ^ (2 ^ i * t)) (-1)) /\ forall j, i < j < s -> ~ exists a, cg n (a ^ (2 ^ j * t)) (-1).
  Proof using Hn On Hs Ot Em.
    apply (largest (fun i => exists a, cg n (a ^ (2 ^ i * t)) (-1))); [|apply s_pos|].
    - intros i. destruct (existsb (fun a => a ^ (2 ^ i * t) mod n =? n - 1) (zrange 0 n)) eqn:E.
      + left. apply existsb_exists in E as (a & _ & E). exists a. apply cg_m1; [lia|]. apply Z.eqb_eq, E.
      + right. intros (a & C). assert (existsb (fun a => a ^ (2 ^ i * t) mod n =? n - 1) (zrange 0 n) = true) as K; [|congruence].
        apply existsb_exists. exists (a mod n). split; [apply zrange_In, Z.mod_pos_bound; lia|]. apply Z.eqb_eq, cg_m1; [lia|]. rewrite cg_mod. exact C.
    - exists (-1). rewrite Z.pow_0_r, Z.mul_1_l. pose proof t_pos. apply Z.odd_spec in Ot as (k & ->). rewrite Z.pow_add_r, Z.pow_mul_r, Z.pow_1_r by lia. change ((-1) ^ 2) with 1. rewrite Z.pow_1_l by lia. reflexivity.
  Qed.

  (** A base that leads out of the liars. *)
  Lemma strong_witness : ~ prime n -> exists b, Z.gcd b n = 1 /\ forall a, liar a -> ~ liar ((b * a) mod n).
  Proof using Hn On Hs Ot Em.
    intros NP. destruct (composite_cases n Hn NP) as (p & m & Pp & En & Hm & [D|G]); pose proof (prime_ge2 p Pp) as P2.
    - destruct (square_witness p m ltac:(lia) Hm D) as (b & Gb & Nb). rewrite <- En in Gb, Nb. exists b. split; [exact Gb|]. intros a La Lb. apply liar_fermat in La, Lb. apply Nb.
      rewrite (proj2 (cg_pow_mul n b a (n - 1) ltac:(lia))), La, Z.mul_1_r in Lb. exact Lb.
    - destruct last_minus as (i & Hi & (x & Cx) & Max). set (e := 2 ^ i * t) in *. assert (He : 0 < e) by (unfold e; pose proof t_pos; pose proof (Z.pow_pos_nonneg 2 i); nia).
      assert (Odd : 2 < p /\ 2 < m).
      { rewrite En, Z.odd_mul in On. apply andb_prop in On as (O1 & O2). split; [destruct (Z.eq_dec p 2) as [->|]; [discriminate|lia]|destruct (Z.eq_dec m 2) as [->|]; [discriminate|lia]]. }
      destruct (glue p m x ltac:(lia) ltac:(lia) G) as (b & Bp & Bm). exists b.
      assert (Ep : cg p (b ^ e) (-1)) by (rewrite Bp; apply (cg_weaken n); [exists m; lia|exact Cx]).
      assert (Emm : cg m (b ^ e) 1) by (apply cg_pow_1; [lia|exact Bm]).
      split.
      { apply (cg_unit n b (e * 2)); [lia|]. rewrite Z.pow_mul_r by lia. rewrite En. apply cg_crt; [exact G|rewrite Ep|rewrite Emm]; reflexivity. }
      assert (Sm : forall a, liar a -> cg n (a ^ e) 1 \/ cg n (a ^ e) (-1)).
      { intros a [H|(j & Hj & H)]; [left; apply once; [lia|exact H]|]. destruct (Z_lt_ge_dec i j) as [L|L]; [exfalso; apply (Max j ltac:(lia)); exists a; exact H|].
        destruct (Z.eq_dec i j) as [->|N]; [right; exact H|left; apply (double a j i); [lia|exact H]]. }
      intros a La Lb. apply Sm in La, Lb. rewrite (proj2 (cg_pow_mul n b a e ltac:(lia))) in Lb.
      assert (Nb : ~ cg n (b ^ e) 1 /\ ~ cg n (b ^ e) (-1)).
      { split; intros C.
        - apply (cg_pm p (b ^ e)); [lia|]. split; [apply (cg_weaken n); [exists m; lia|exact C]|exact Ep].
        - apply (cg_pm m (b ^ e)); [lia|]. split; [exact Emm|apply (cg_weaken n); [exists p; lia|exact C]]. }
      destruct Nb as (N1 & N2). destruct La as [La|La]; rewrite La in Lb.
      + rewrite Z.mul_1_r in Lb. tauto.
      + assert (Ng : cg n (b ^ e) (- (b ^ e * -1))) by (replace (- (b ^ e * -1)) with (b ^ e) by ring; reflexivity). destruct Lb as [Lb|Lb]; rewrite Lb in Ng; [apply N2, Ng|apply N1, Ng].
  Qed.

  Lemma liar_unit a : liar a -> Z.gcd a n = 1.
  Proof using Hn Hs Em. intros L. apply liar_fermat in L. apply (cg_unit n a (n - 1)); [lia|exact L]. Qed.
End Strong.

(** The part of n - 1 that is a power of two. *)
Lemma split_exists n : 1 < n -> exists s t, 0 <= s /\ Z.odd t = true /\ n - 1 = 2 ^ s * t.
Proof.
  intros Hn. destruct (split2_ok (n - 1) ltac:(lia)) as (s & t & _ & Hs & Em & Ht). exists s, t. split; [exact Hs|]. split; [|exact Em].
  rewrite Zmod_odd in Ht. destruct (Z.odd t); [reflexivity|discriminate].
Qed.

Lemma strong_half n L : 1 < n -> Z.odd n = true -> ~ prime n -> NoDup L -> (forall a, In a L -> 0 <= a < n /\ strong_probable_prime n a) ->
  2 * Z.of_nat (length L) <= totient n.
Proof.
  intros Hn On NP ND HL. destruct (split_exists n Hn) as (s & t & Hs & Ot & Em). destruct (strong_witness n s t Hn On Hs Ot Em NP) as (b & Gb & W).
  apply (half n b (liar n s t)); [exact Hn|exact Gb|intros a; apply (liar_unit n s t Hn Hs Em)|exact W|exact ND|].
  intros a Ha. destruct (HL a Ha) as (B & P). split; [exact B|]. apply (spp_liar n s t Hn On Hs Ot Em), P.
Qed.

(** ** Euler probable primes *)
Lemma jac_cases a ps : jac a ps = 0 \/ jac a ps = 1 \/ jac a ps = -1.
Proof.
  unfold jac. induction ps as [|p ps IH]; [right; left; reflexivity|]. cbn [map]. rewrite zprod_cons. destruct (legendre_cases a p) as [->|[->| ->]]; destruct IH as [->|[->| ->]]; lia.
Qed.

Lemma odd_prime_list n l : Z.odd n = true -> 0 < n -> factorization n l -> odd_primes (primes_of l) /\ zprod (primes_of l) = n.
Proof.
  intros O Hn F. destruct (primes_of_ok n l F) as (H1 & H2 & _). split; [|exact H1]. intros p Hp. split; [apply H2, Hp|]. apply (odd_factor n); [exact O|]. rewrite <- H1.
  clear - Hp. induction (primes_of l) as [|q ps IH]; [destruct Hp|]. rewrite zprod_cons. destruct Hp as [->|Hp]; [apply Z.divide_factor_l|apply Z.divide_mul_r, IH, Hp].
Qed.

Section Euler.
  Context (n : Z) (ps : list Z) (Hn : 1 < n) (On : Z.odd n = true) (Ho : odd_primes ps) (Ez : zprod ps = n).
  Definition eliar (a : Z) : Prop := jac a ps <> 0 /\ cg n (a ^ ((n - 1) / 2)) (jac a ps).

  Lemma half_exp : 0 <= (n - 1) / 2 /\ (n - 1) / 2 * 2 = n - 1.
  Proof using Hn On. clear Ho Ez. apply Z.odd_spec in On as (k & ->). replace (2 * k + 1 - 1) with (k * 2) by lia. rewrite Z.div_mul by lia. lia. Qed.

  Lemma eliar_ok a : exists b, solovay_strassen n a = Ret b /\ (b = true <-> eliar a).
  Proof using Hn On Ho Ez.
    unfold solovay_strassen. rewrite (jacobi_ok a n ps Ho Ez). cbn [bind]. unfold eliar. destruct (Z.eqb_spec (jac a ps) 0) as [E|N]; [exists false; split; [reflexivity|]; split; [discriminate|tauto]|].
    unfold pymod, Ord_Model.pow3. destruct (Z.eqb_spec n 0); [lia|]. cbn [bind]. eexists. split; [reflexivity|]. rewrite Z.eqb_eq, cg_iff. split; [intros E; split; [exact N|symmetry; exact E]|intros (_ & E); symmetry; exact E].
  Qed.

  Lemma eliar_fermat a : eliar a -> cg n (a ^ (n - 1)) 1.
  Proof using Hn On. intros (N & C). destruct half_exp as (H0 & H2). rewrite <- H2, Z.pow_mul_r, C by lia. destruct (jac_cases a ps) as [E|[E|E]]; [contradiction|rewrite E; reflexivity..]. Qed.

  Lemma eliar_mul a b : eliar a -> eliar ((b * a) mod n) -> eliar b.
  Proof using Hn On Ho Ez.
    intros (Na & Ca) (Nb & Cb). destruct half_exp as (H0 & _).
    assert (J : jac ((b * a) mod n) ps = jac b ps * jac a ps) by (rewrite <- jac_mul by exact Ho; apply jac_cg; rewrite Ez; apply cg_mod). rewrite J in Nb, Cb. split; [intros Q; apply Nb; rewrite Q; reflexivity|].
    rewrite (proj2 (cg_pow_mul n b a _ H0)), Ca in Cb. destruct (jac_cases a ps) as [E|[E|E]]; [contradiction| |]; rewrite E in Cb.
    - rewrite !Z.mul_1_r in Cb. exact Cb.
    - replace (b ^ ((n - 1) / 2)) with (- (b ^ ((n - 1) / 2) * -1)) by ring. rewrite Cb. replace (- (jac b ps * -1)) with (jac b ps) by ring. reflexivity.
  Qed.
End Euler.

Lemma nonresidue p : prime p -> p <> 2 -> exists g, legendre g p = -1.
Proof.
  intros Hp N2. pose proof (C11_half_are_nonresidues p Hp N2) as H. destruct (filter (fun d => legendre d p =? -1) (zrange 1 p)) as [|g l] eqn:E.
  - exfalso. pose proof (prime_ge2 p Hp). assert (1 <= (p - 1) / 2) by (apply Z.div_le_lower_bound; lia). cbn [length] in H. lia.
  - exists g. apply Z.eqb_eq. assert (K : In g (filter (fun d => legendre d p =? -1) (zrange 1 p))) by (rewrite E; left; reflexivity). apply filter_In in K. apply K.
Qed.

Lemma euler_half n L : 1 < n -> Z.odd n = true -> ~ prime n -> NoDup L -> (forall a, In a L -> 0 <= a < n /\ solovay_strassen n a = Ret true) ->
  2 * Z.of_nat (length L) <= totient n.
Proof.
  intros Hn On NP ND HL.
  assert (W : exists ps b, odd_primes ps /\ zprod ps = n /\ Z.gcd b n = 1 /\ ~ eliar n ps b).
  { destruct (composite_cases n Hn NP) as (p & m & Pp & En & Hm & [D|G]); pose proof (prime_ge2 p Pp) as P2.
    - destruct (fac_exists n ltac:(lia)) as (l & F). destruct (odd_prime_list n l On ltac:(lia) F) as (Ho & Ez).
      destruct (square_witness p m ltac:(lia) Hm D) as (b & Gb & Nb). rewrite <- En in Gb, Nb. exists (primes_of l), b. split; [exact Ho|]. split; [exact Ez|]. split; [exact Gb|].
      intros E. apply Nb, (eliar_fermat n (primes_of l)); assumption.
    - pose proof On as On'. rewrite En, Z.odd_mul in On'. apply andb_prop in On' as (O1 & O2). destruct (fac_exists m ltac:(lia)) as (l & F). destruct (odd_prime_list m l O2 ltac:(lia) F) as (Ho & Ez).
      assert (Ho' : odd_primes (p :: primes_of l)) by (intros q [<-|Hq]; [auto|apply Ho, Hq]). assert (Pn2 : p <> 2) by (intros ->; discriminate).
      destruct (nonresidue p Pp Pn2) as (g & Eg). destruct (glue p m g ltac:(lia) ltac:(lia) G) as (b & Bp & Bm). exists (p :: primes_of l), b. split; [exact Ho'|]. split; [rewrite zprod_cons, Ez; lia|].
      assert (J : jac b (p :: primes_of l) = -1). { unfold jac. cbn [map]. rewrite zprod_cons. fold (jac b (primes_of l)). rewrite (legendre_cg b g p Bp), Eg, (jac_cg b 1), (jac_1 _ Ho) by (rewrite Ez; exact Bm). reflexivity. }
      split.
      + apply Zgcd_1_rel_prime. rewrite En. apply rel_prime_mult.
        * apply rel_prime_sym, prime_rel_prime; [exact Pp|]. intros Dv. assert (E0 : legendre g p = 0); [|rewrite Eg in E0; discriminate]. rewrite <- (legendre_cg b g p Bp). apply (legendre_0 p (p / 2) Pp (odd_prime p Pp O1)). exact Dv.
        * apply Zgcd_1_rel_prime. rewrite (cg_gcd m b 1 Bm). apply Z.gcd_1_l.
      + intros (_ & C). rewrite J in C. apply (cg_weaken n m) in C; [|exists p; lia]. apply (cg_pm m (b ^ ((n - 1) / 2))); [destruct (Z.eq_dec m 2) as [->|]; [discriminate|lia]|]. split; [|exact C].
        apply cg_pow_1; [apply (half_exp n Hn On)|exact Bm]. }
  destruct W as (ps & b & Ho & Ez & Gb & Nb).
  apply (half n b (eliar n ps)); [exact Hn|exact Gb| | |exact ND|].
  - intros a Ha. apply (eliar_fermat n ps Hn On) in Ha. apply (cg_unit n a (n - 1)); [lia|exact Ha].
  - intros a Ha Q. apply Nb, (eliar_mul n ps Hn On Ho Ez a b Ha Q).
  - intros a Ha. destruct (HL a Ha) as (B & E). split; [exact B|]. destruct (eliar_ok n ps Hn On Ho Ez a) as (x & Ex & Hx). apply Hx. congruence.
Qed.

(** ** At most n - 3 numbers are coprime to an odd composite n *)
Lemma totient_composite n : 1 < n -> Z.odd n = true -> ~ prime n -> totient n <= n - 3.
Proof.
  intros Hn On NP. destruct (composite_cases n Hn NP) as (p & m & Pp & En & Hm & _). pose proof (prime_ge2 p Pp) as P2.
  assert (Hm3 : 2 < m) by (rewrite En, Z.odd_mul in On; apply andb_prop in On as (_ & O2); destruct (Z.eq_dec m 2) as [->|]; [discriminate|lia]).
  rewrite totient_units by lia.
  assert (N2 : NoDup (0 :: p :: 2 * p :: units n)).
  { constructor; [intros [Q|[Q|Q]]; [lia|lia|]|constructor; [intros [Q|Q]; [lia|]|constructor; [intros Q|apply units_NoDup]]]; apply units_In in Q as (_ & Q).
    - rewrite Z.gcd_0_l in Q. lia.
    - assert (D : (p | Z.gcd p n)) by (apply Z.gcd_greatest; [apply Z.divide_refl|exists m; lia]). rewrite Q in D. apply Z.divide_pos_le in D; lia.
    - assert (D : (p | Z.gcd (2 * p) n)) by (apply Z.gcd_greatest; [apply Z.divide_factor_r|exists m; lia]). rewrite Q in D. apply Z.divide_pos_le in D; lia. }
  assert (Inc : incl (0 :: p :: 2 * p :: units n) (zrange 0 n)).
  { intros x Hx. apply zrange_In. destruct Hx as [<-|[<-|[<-|Hx]]]; [lia|nia|nia|]. apply units_In in Hx. lia. }
  pose proof (NoDup_incl_length N2 Inc) as E. cbn [length] in E. pose proof (zrange_length 0 n) as Lz. lia.
Qed.
