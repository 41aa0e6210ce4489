(** * miller_rabin rejects an odd composite number, other than 9, for three quarters of the bases *)
From Coq Require Import ZArith List Lia Znumtheory Zpow_facts Bool Setoid Morphisms.
From Verif Require Import Base Py NT NT_Euler Arith_Spec Arith_Proofs NT_Cong NT_Prim Lists2 Factor_Spec Find_Proofs8 Primality_Model PTest_Spec PTest_Model PTest_Proofs.
Import ListNotations.
Open Scope Z_scope.

(** ** Disjoint translates of a set of units *)
Lemma translates n (P : Z -> Prop) L bs : 1 < n -> (forall a, P a -> Z.gcd a n = 1) -> (forall b, In b bs -> Z.gcd b n = 1) ->
  ForallOrdPairs (fun b b' => forall a a', P a -> P a' -> ~ cg n (b * a) (b' * a')) bs ->
  NoDup L -> (forall a, In a L -> 0 <= a < n /\ P a) -> Z.of_nat (length bs) * Z.of_nat (length L) <= totient n.
Proof.
  intros Hn U Ub Sp ND HL. rewrite totient_units by lia.
  set (T := fun b => map (fun a => (b * a) mod n) L). set (A := flat_map T bs).
  assert (N1 : forall b, Z.gcd b n = 1 -> NoDup (T b)).
  { intros b Gb. unfold T. clear - ND HL Gb Hn. induction ND as [|x l Nx ND IH]; [constructor|]. cbn [map]. constructor; [|apply IH; intros; apply HL; right; assumption].
    intros Q. apply in_map_iff in Q as (y & E & Hy). destruct (HL x (or_introl eq_refl)) as (Bx & _). destruct (HL y (or_intror Hy)) as (By & _).
    apply mod_cancel in E; [|lia|exact Gb]. rewrite !Z.mod_small in E by lia. subst. contradiction. }
  assert (N2 : NoDup A).
  { unfold A. clear A. induction Sp as [|b l Hb Sp IH]; [constructor|]. cbn [flat_map]. apply NoDup_app_intro; [apply N1, Ub; left; reflexivity|apply IH; intros; apply Ub; right; assumption|].
    intros x Hx Q. apply in_flat_map in Q as (b' & Hb' & Q). rewrite Forall_forall in Hb. apply in_map_iff in Hx as (a & Ea & Ha). apply in_map_iff in Q as (a' & Ea' & Ha').
    apply (Hb b' Hb' a a'); [apply HL, Ha|apply HL, Ha'|]. apply cg_iff. congruence. }
  assert (Inc : incl A (units n)).
  { intros x Hx. apply in_flat_map in Hx as (b & Hb & Hx). apply in_map_iff in Hx as (y & <- & Hy). apply units_In. split; [apply Z.mod_pos_bound; lia|]. rewrite gcd_mod by lia. apply gcd_1_mul; [apply Ub, Hb|apply U, HL, Hy]. }
  pose proof (NoDup_incl_length N2 Inc) as E. assert (LA : length A = (length bs * length L)%nat). { unfold A. clear. induction bs as [|b l IH]; [reflexivity|]. cbn [flat_map length]. rewrite app_length, IH. unfold T. rewrite map_length. lia. }
  lia.
Qed.

(** ** Prime powers *)
Lemma square_powers p m : 1 < p -> (p | m) -> forall k, 0 <= k -> cg (p * m) ((1 + m) ^ k) (1 + k * m).
Proof.
  intros Hp (c & E) k Hk. pattern k. apply natlike_ind; [reflexivity| |exact Hk]. intros j Hj IH. rewrite Z.pow_succ_r, IH by exact Hj. apply cg_div. exists (j * c). assert (M2 : m * m = c * (p * m)) by (rewrite E at 1; ring). unfold Z.succ. transitivity (j * (m * m)); [ring|]. rewrite M2. ring.
Qed.

(** ** Two or more primes *)
Lemma cg_no m : 2 < m -> ~ cg m 1 (-1).
Proof. intros Hm C. apply cg_div in C. apply Z.divide_pos_le in C; lia. Qed.

Section Strong.
  Context (n s t : Z) (Hn : 1 < n) (On : Z.odd n = true) (Hs : 0 <= s) (Ot : Z.odd t = true) (Em : n - 1 = 2 ^ s * t).
  Notation liar := (liar n s t).

  (** Two numbers whose translates of the liars are disjoint. *)
  Lemma apart_fermat b b' : ~ cg n (b ^ (n - 1)) (b' ^ (n - 1)) -> forall a a', liar a -> liar a' -> ~ cg n (b * a) (b' * a').
  Proof using Hn Hs Em.
    intros N a a' La La' C. apply N. apply (liar_fermat n s t Hn Hs Em) in La, La'. assert (Q : cg n ((b * a) ^ (n - 1)) ((b' * a') ^ (n - 1))) by (rewrite C; reflexivity). rewrite !Z.pow_mul_l, La, La', !Z.mul_1_r in Q. exact Q.
  Qed.

  (** The exponent with the property that the liars are mapped to 1 or -1, and some number to -1. *)
  Lemma exponent : exists e x, 0 < e /\ (2 * e | n - 1) /\ cg n (x ^ e) (-1) /\ forall a, liar a -> cg n (a ^ e) 1 \/ cg n (a ^ e) (-1).
  Proof using Hn On Hs Ot Em.
    destruct (last_minus n s t Hn On Hs Ot Em) as (i & Hi & (x & Cx) & Max). exists (2 ^ i * t), x. pose proof (t_pos n s t Hn Hs Em). split; [pose proof (Z.pow_pos_nonneg 2 i); nia|].
    split; [exists (2 ^ (s - i - 1)); rewrite Em; replace s with ((s - i - 1) + 1 + i) at 1 by lia; rewrite !Z.pow_add_r by lia; ring|]. split; [exact Cx|].
    intros a [H0|(j & Hj & H0)]; [left; apply (once n s t Hn Hs Em); [lia|exact H0]|]. destruct (Z_lt_ge_dec i j) as [L|L]; [exfalso; apply (Max j ltac:(lia)); exists a; exact H0|].
    destruct (Z.eq_dec i j) as [->|N]; [right; exact H0|left; apply (double n s t Hn Hs Em a j i); [lia|exact H0]].
  Qed.

  Lemma apart_e e b b' : 0 < e -> (forall a, liar a -> cg n (a ^ e) 1 \/ cg n (a ^ e) (-1)) -> ~ cg n (b ^ e) (b' ^ e) -> ~ cg n (b ^ e) (- b' ^ e) ->
    forall a a', liar a -> liar a' -> ~ cg n (b * a) (b' * a').
  Proof using.
    intros He Sm N1 N2 a a' La La' C. assert (Q : cg n ((b * a) ^ e) ((b' * a') ^ e)) by (rewrite C; reflexivity). rewrite !Z.pow_mul_l in Q.
    destruct (Sm a La) as [Ea|Ea], (Sm a' La') as [Ea'|Ea']; rewrite Ea, Ea' in Q; rewrite ?Z.mul_1_r in Q.
    - apply N1, Q.
    - apply N2. rewrite Q. replace (b' ^ e * -1) with (- b' ^ e) by ring. reflexivity.
    - apply N2. replace (b ^ e) with (- (b ^ e * -1)) by ring. rewrite Q. reflexivity.
    - apply N1. replace (b ^ e) with (- (b ^ e * -1)) by ring. rewrite Q. replace (- (b' ^ e * -1)) with (b' ^ e) by ring. reflexivity.
  Qed.

  Lemma spread bs L : length bs = 4%nat -> (forall b, In b bs -> Z.gcd b n = 1) -> ForallOrdPairs (fun b b' => forall a a', liar a -> liar a' -> ~ cg n (b * a) (b' * a')) bs ->
    NoDup L -> (forall a, In a L -> 0 <= a < n /\ strong_probable_prime n a) -> 4 * Z.of_nat (length L) <= totient n.
  Proof using Hn On Hs Ot Em.
    intros E4 Ub Sp ND HL. change 4 with (Z.of_nat 4). rewrite <- E4. apply (translates n liar); [exact Hn|intros a; apply (liar_unit n s t Hn Hs Em)|exact Ub|exact Sp|exact ND|].
    intros a Ha. destruct (HL a Ha) as (B & P). split; [exact B|]. apply (spp_liar n s t Hn On Hs Ot Em), P.
  Qed.

  (** A unit with four different powers of exponent n - 1. *)
  Lemma powers_apart y L : Z.gcd y n = 1 -> (forall d, 1 <= d <= 3 -> ~ cg n (y ^ (d * (n - 1))) 1) ->
    NoDup L -> (forall a, In a L -> 0 <= a < n /\ strong_probable_prime n a) -> 4 * Z.of_nat (length L) <= totient n.
  Proof using Hn On Hs Ot Em.
    intros G N. apply (spread [y ^ 0; y ^ 1; y ^ 2; y ^ 3]); [reflexivity| |].
    - intros b [<-|[<-|[<-|[<-|[]]]]]; apply gcd_1_pow; (lia || exact G).
    - assert (K : forall i j, 0 <= i < j -> j <= 3 -> forall a a', liar a -> liar a' -> ~ cg n (y ^ i * a) (y ^ j * a')).
      { intros i j Hij Hj. apply apart_fermat. rewrite <- !Z.pow_mul_r by lia. intros C. apply (N (j - i)); [lia|]. replace (j * (n - 1)) with (i * (n - 1) + (j - i) * (n - 1)) in C by ring. rewrite Z.pow_add_r in C by nia.
        symmetry. apply (cg_cancel n (y ^ (i * (n - 1)))); [apply gcd_1_pow; [nia|exact G]|]. rewrite Z.mul_1_r. exact C. }
      repeat constructor; apply K; lia.
  Qed.

  (** x modulo u and 1 modulo v. *)
  Lemma part e x u v : 0 < e -> 0 < u -> 0 < v -> n = u * v -> Z.gcd u v = 1 -> cg n (x ^ e) (-1) -> exists b, cg u (b ^ e) (-1) /\ cg v (b ^ e) 1 /\ Z.gcd b n = 1 /\ cg n (b ^ (2 * e)) 1.
  Proof using Hs.
    intros He Hu Hv En G Cx. destruct (glue u v x Hu Hv G) as (b & Bu & Bv). exists b.
    assert (Eu : cg u (b ^ e) (-1)) by (rewrite Bu; apply (cg_weaken n); [exists v; lia|exact Cx]). assert (Ev : cg v (b ^ e) 1) by (apply cg_pow_1; [lia|exact Bv]).
    assert (E2 : cg n (b ^ (2 * e)) 1) by (rewrite Z.mul_comm, Z.pow_mul_r by lia; rewrite En; apply cg_crt; [exact G|rewrite Eu|rewrite Ev]; reflexivity).
    split; [exact Eu|]. split; [exact Ev|]. split; [apply (cg_unit n b (2 * e)); [lia|exact E2]|exact E2].
  Qed.

  (** Three coprime factors. *)
  Lemma three_factors u v w L : 2 < u -> 2 < v -> 2 < w -> n = u * v * w -> Z.gcd u v = 1 -> Z.gcd u w = 1 -> Z.gcd v w = 1 ->
    NoDup L -> (forall a, In a L -> 0 <= a < n /\ strong_probable_prime n a) -> 4 * Z.of_nat (length L) <= totient n.
  Proof using Hn On Hs Ot Em.
    intros Hu Hv Hw En G1 G2 G3. destruct exponent as (e & x & He & De & Cx & Sm).
    destruct (part e x u (v * w) He ltac:(lia) ltac:(nia) ltac:(rewrite En; ring)) as (b1 & A1 & B1 & U1 & _); [rewrite Z.gcd_comm; apply gcd_1_mul; rewrite Z.gcd_comm; assumption|exact Cx|].
    destruct (part e x v (u * w) He ltac:(lia) ltac:(nia) ltac:(rewrite En; ring)) as (b2 & A2 & B2 & U2 & _); [rewrite Z.gcd_comm; apply gcd_1_mul; [exact G1|rewrite Z.gcd_comm; exact G3]|exact Cx|].
    destruct (part e x w (u * v) He ltac:(lia) ltac:(nia) ltac:(rewrite En; ring)) as (b3 & A3 & B3 & U3 & _); [rewrite Z.gcd_comm; apply gcd_1_mul; assumption|exact Cx|].
    pose proof (cg_weaken (v * w) v _ _ ltac:(exists w; ring) B1) as B1v. pose proof (cg_weaken (v * w) w _ _ ltac:(exists v; ring) B1) as B1w.
    pose proof (cg_weaken (u * w) u _ _ ltac:(exists w; ring) B2) as B2u. pose proof (cg_weaken (u * w) w _ _ ltac:(exists u; ring) B2) as B2w.
    pose proof (cg_weaken (u * v) u _ _ ltac:(exists v; ring) B3) as B3u. pose proof (cg_weaken (u * v) v _ _ ltac:(exists u; ring) B3) as B3v.
    assert (Du : (u | n)) by (exists (v * w); rewrite En; ring). assert (Dv : (v | n)) by (exists (u * w); rewrite En; ring). assert (Dw : (w | n)) by (exists (u * v); rewrite En; ring).
    apply (spread [1; b1; b2; b3]); [reflexivity|intros b [<-|[<-|[<-|[<-|[]]]]]; try assumption; apply Z.gcd_1_l|].
    assert (E1 : forall m, cg m (1 ^ e) 1) by (intros m; rewrite Z.pow_1_l by lia; reflexivity).
    assert (K : forall m b b' z, 2 < m -> (m | n) -> cg m (b ^ e) z -> (z = 1 /\ cg m (b' ^ e) (-1) \/ z = -1 /\ cg m (b' ^ e) 1) -> ~ cg n (b ^ e) (b' ^ e)).
    { intros m b b' z Hm Dm Eb Q C. apply (cg_weaken n m) in C; [|exact Dm]. rewrite Eb in C. destruct Q as [(-> & Q)|(-> & Q)]; rewrite Q in C; [|symmetry in C]; apply (cg_no m Hm C). }
    assert (K' : forall m b b', 2 < m -> (m | n) -> cg m (b ^ e) 1 -> cg m (b' ^ e) 1 -> ~ cg n (b ^ e) (- b' ^ e)).
    { intros m b b' Hm Dm Eb Eb' C. apply (cg_weaken n m) in C; [|exact Dm]. rewrite Eb, Eb' in C. apply (cg_no m Hm C). }
    constructor; [|constructor; [|constructor; [|constructor; [|constructor]]]]; repeat (apply Forall_cons || apply Forall_nil); apply (apart_e e); try assumption.
    - apply (K u 1 b1 1); auto. - apply (K' v 1 b1); auto.
    - apply (K v 1 b2 1); auto. - apply (K' u 1 b2); auto.
    - apply (K w 1 b3 1); auto. - apply (K' v 1 b3); auto.
    - apply (K u b1 b2 (-1)); auto. - apply (K' w b1 b2); auto.
    - apply (K u b1 b3 (-1)); auto. - apply (K' v b1 b3); auto.
    - apply (K v b2 b3 (-1)); auto. - apply (K' u b2 b3); auto.
  Qed.

  (** Two coprime factors and a number that is not a Fermat liar. *)
  Lemma two_factors u v y L : 2 < u -> 2 < v -> n = u * v -> Z.gcd u v = 1 -> Z.gcd y n = 1 -> ~ cg n (y ^ (n - 1)) 1 ->
    NoDup L -> (forall a, In a L -> 0 <= a < n /\ strong_probable_prime n a) -> 4 * Z.of_nat (length L) <= totient n.
  Proof using Hn On Hs Ot Em.
    intros Hu Hv En G Gy Ny. destruct exponent as (e & x & He & (c & De) & Cx & Sm). assert (Hc : 0 <= c) by nia.
    destruct (part e x u v He ltac:(lia) ltac:(lia) En G Cx) as (b & A & B & Ub & E2).
    assert (Du : (u | n)) by (exists v; lia). assert (Dv : (v | n)) by (exists u; lia).
    assert (Fb : cg n (b ^ (n - 1)) 1) by (rewrite De, Z.mul_comm, Z.pow_mul_r by lia; apply cg_pow_1; assumption).
    assert (F1 : cg n (1 ^ (n - 1)) 1) by (rewrite Z.pow_1_l by lia; reflexivity).
    assert (N1 : ~ cg n 1 (b ^ e)) by (intros C; apply (cg_weaken n u) in C; [|exact Du]; rewrite A in C; apply (cg_no u Hu C)).
    assert (N2 : ~ cg n 1 (- b ^ e)) by (intros C; apply (cg_weaken n v) in C; [|exact Dv]; rewrite B in C; apply (cg_no v Hv C)).
    apply (spread [1; b; y; b * y]); [reflexivity|intros z [<-|[<-|[<-|[<-|[]]]]]; try assumption; [apply Z.gcd_1_l|apply gcd_1_mul; assumption]|].
    constructor; [|constructor; [|constructor; [|constructor; [|constructor]]]]; repeat (apply Forall_cons || apply Forall_nil).
    - apply (apart_e e); [exact He|exact Sm|rewrite Z.pow_1_l by lia; exact N1|rewrite Z.pow_1_l by lia; exact N2].
    - apply apart_fermat. rewrite F1. intros C. apply Ny. symmetry. exact C.
    - apply apart_fermat. rewrite F1, Z.pow_mul_l, Fb, Z.mul_1_l. intros C. apply Ny. symmetry. exact C.
    - apply apart_fermat. rewrite Fb. intros C. apply Ny. symmetry. exact C.
    - apply apart_fermat. rewrite Z.pow_mul_l, Fb, Z.mul_1_l. intros C. apply Ny. symmetry. exact C.
    - assert (Gye : Z.gcd (y ^ e) n = 1) by (apply gcd_1_pow; [lia|exact Gy]). apply (apart_e e); [exact He|exact Sm| |]; rewrite Z.pow_mul_l; intros C.
      + apply N1. apply (cg_cancel n (y ^ e) _ _ Gye). rewrite Z.mul_1_r, (Z.mul_comm _ (b ^ e)). exact C.
      + apply N2. apply (cg_cancel n (y ^ e) _ _ Gye). rewrite Z.mul_1_r. replace (y ^ e * - b ^ e) with (- (b ^ e * y ^ e)) by ring. exact C.
  Qed.
End Strong.

(** The product of two different primes is not a Carmichael number. *)
Lemma two_primes p q : prime p -> prime q -> p < q -> exists y, Z.gcd y (p * q) = 1 /\ ~ cg (p * q) (y ^ (p * q - 1)) 1.
Proof.
  intros Pp Pq L. pose proof (prime_ge2 p Pp). pose proof (prime_ge2 q Pq). destruct (prim_prime q Pq) as (g & O).
  assert (G : Z.gcd q p = 1) by (apply Zgcd_1_rel_prime, rel_prime_sym, prime_rel_prime; [exact Pp|]; intros D; apply (prime_div_prime p q Pp Pq) in D; lia).
  destruct (glue q p g ltac:(lia) ltac:(lia) G) as (y & Yq & Yp). exists y.
  assert (C1 : cg (q * p) (y ^ (q - 1)) 1) by (apply cg_crt; [exact G|rewrite Yq; apply O|apply cg_pow_1; [lia|exact Yp]]). rewrite Z.mul_comm in C1.
  split; [apply (cg_unit (p * q) y (q - 1)); [lia|exact C1]|]. intros C. apply (cg_weaken _ q) in C; [|exists p; ring]. rewrite Yq in C. apply (order_divide q g (q - 1)) in C; [|exact O|nia].
  replace (p * q - 1) with (p * (q - 1) + (p - 1)) in C by ring. apply Z.divide_add_cancel_r in C; [|exists p; ring]. apply Z.divide_pos_le in C; lia.
Qed.

Lemma strong_quarter n L : 1 < n -> Z.odd n = true -> ~ prime n -> n <> 9 -> NoDup L -> (forall a, In a L -> 0 <= a < n /\ strong_probable_prime n a) ->
  4 * Z.of_nat (length L) <= totient n.
Proof.
  intros Hn On NP N9 ND HL. destruct (split_exists n Hn) as (s & t & Hs & Ot & Em).
  assert (O3 : forall d, (d | n) -> 1 < d -> 2 < d). { intros d (c & E) Hd. destruct (Z.eq_dec d 2) as [->|]; [|lia]. exfalso. rewrite E, Z.odd_mul, andb_false_r in On. discriminate. }
  destruct (prime_divisor_exists n ltac:(lia)) as (p & Pp & Dp). pose proof (prime_ge2 p Pp) as P2. pose proof (O3 p Dp ltac:(lia)) as P3.
  destruct (strip_exists p n Pp ltac:(lia)) as (k & m & Hk & En & Nm & Hm).
  assert (K1 : 1 <= k). { destruct (Z.eq_dec k 0) as [->|]; [|lia]. rewrite Z.pow_0_r, Z.mul_1_l in En. subst m. contradiction. }
  assert (Pk : forall p k, prime p -> 1 <= k -> p <= p ^ k). { intros r j Pr Hj. pose proof (prime_ge2 r Pr). replace j with (1 + (j - 1)) by lia. rewrite Z.pow_add_r, Z.pow_1_r by lia. pose proof (Z.pow_pos_nonneg r (j - 1)). nia. }
  assert (Cop : forall p k m, prime p -> 0 <= k -> ~ (p | m) -> Z.gcd (p ^ k) m = 1). { intros r j a Pr Hj Na. apply gcd_1_pow; [exact Hj|]. apply Zgcd_1_rel_prime, prime_rel_prime; assumption. }
  pose proof (Pk p k Pp K1) as LP.
  destruct (Z.eq_dec m 1) as [->|Nm1].
  - (* a prime power *)
    rewrite Z.mul_1_r in En. assert (K2 : 2 <= k). { destruct (Z.eq_dec k 1) as [->|]; [|lia]. rewrite Z.pow_1_r in En. subst n. contradiction. }
    destruct (Z.eq_dec p 3) as [->|Np3].
    + assert (K3 : 3 <= k). { destruct (Z.eq_dec k 2) as [->|]; [|lia]. destruct (N9 En). }
      assert (D27 : (27 | n)) by (exists (3 ^ (k - 3)); rewrite En; replace k with ((k - 3) + 3) at 1 by lia; rewrite Z.pow_add_r by lia; reflexivity).
      apply (powers_apart n s t Hn On Hs Ot Em 4 L); [rewrite En, Z.gcd_comm; apply Cop; [exact Pp|lia|intros (c & D); lia]| |exact ND|exact HL].
      intros d Hd C. apply (cg_weaken n 27) in C; [|exact D27]. destruct D27 as (c & Ec). assert (Hc : 0 < c) by lia.
      assert (C' : cg 27 (4 ^ d) 1).
      { assert (E1 : cg 27 (4 ^ (d * n)) 1). { rewrite Ec. replace (d * (c * 27)) with (27 * (d * c)) by ring. rewrite Z.pow_mul_r by nia. apply cg_pow_1; [nia|]. apply cg_iff. vm_compute. reflexivity. }
        replace (d * n) with (d * (n - 1) + d) in E1 by ring. rewrite Z.pow_add_r in E1 by nia. rewrite C, Z.mul_1_l in E1. exact E1. }
      apply cg_iff in C'. assert (Hd' : d = 1 \/ d = 2 \/ d = 3) by lia. destruct Hd' as [->|[->| ->]]; vm_compute in C'; discriminate.
    + set (r := p ^ (k - 1)). assert (Er : n = p * r) by (rewrite En; unfold r; replace k with (1 + (k - 1)) at 1 by lia; rewrite Z.pow_add_r, Z.pow_1_r by lia; reflexivity).
      assert (Dr : (p | r)) by (exists (p ^ (k - 2)); unfold r; replace (k - 1) with ((k - 2) + 1) by lia; rewrite Z.pow_add_r, Z.pow_1_r by lia; reflexivity).
      pose proof (square_powers p r ltac:(lia) Dr) as Sq. rewrite <- Er in Sq. assert (Hr : 0 < r) by nia.
      apply (powers_apart n s t Hn On Hs Ot Em (1 + r) L); [apply (cg_unit n (1 + r) n); [lia|]; rewrite Sq by lia; apply cg_div; exists r; ring| |exact ND|exact HL].
      intros d Hd C. rewrite Sq in C by nia. apply cg_div in C. assert (D : (p * r | d * r)) by (rewrite <- Er; destruct C as (c & C); exists (d * r - c); lia). apply Z.mul_divide_cancel_r in D; [|lia]. apply Z.divide_pos_le in D; [|lia].
      assert (p <> 4) by (intros E4; rewrite E4 in Pp; destruct (prime_divisors_cases 4 2 Pp) as [E|E]; [exists 2; reflexivity|lia|lia|lia]). lia.
  - destruct (prime_divisor_exists m ltac:(lia)) as (q & Pq & Dq). pose proof (prime_ge2 q Pq) as Q2. assert (Dmn : (m | n)) by (exists (p ^ k); lia). pose proof (O3 q (Z.divide_trans _ _ _ Dq Dmn) ltac:(lia)) as Q3.
    assert (Npq : p <> q) by (intros ->; contradiction).
    destruct (strip_exists q m Pq Hm) as (j & m' & Hj & Em' & Nm' & Hm').
    assert (J1 : 1 <= j). { destruct (Z.eq_dec j 0) as [->|]; [|lia]. rewrite Z.pow_0_r, Z.mul_1_l in Em'. subst m'. contradiction. }
    pose proof (Pk q j Pq J1) as LQ. assert (Np' : ~ (p | m')) by (intros D; apply Nm; rewrite Em'; apply Z.divide_mul_r, D). assert (Npqj : ~ (p | q ^ j)) by (intros D; apply Nm; rewrite Em'; apply Z.divide_mul_l, D).
    destruct (Z.eq_dec m' 1) as [->|Nm'1].
    + rewrite Z.mul_1_r in Em'. assert (Y : exists y, Z.gcd y n = 1 /\ ~ cg n (y ^ (n - 1)) 1).
      { assert (Sq : forall r, prime r -> (r * r | n) -> exists y, Z.gcd y n = 1 /\ ~ cg n (y ^ (n - 1)) 1).
        { intros r Pr (c & Ec). pose proof (prime_ge2 r Pr). assert (Hc : 0 < c) by (clear - Ec Hn H; nia). assert (Hcr : 1 < c * r) by (clear - Hc H; nia). destruct (square_witness r (c * r) ltac:(lia) Hcr ltac:(exists c; reflexivity)) as (y & Gy & Ny). replace (r * (c * r)) with n in * by (rewrite Ec; ring). eauto. }
        destruct (Z.eq_dec k 1) as [->|Nk]; [destruct (Z.eq_dec j 1) as [->|Nj]|].
        - rewrite Z.pow_1_r in *. subst m. destruct (Z_lt_ge_dec p q) as [Lt|Ge]; [rewrite En; apply two_primes; assumption|]. rewrite En, Z.mul_comm. apply two_primes; [exact Pq|exact Pp|lia].
        - apply (Sq q Pq). exists (p ^ 1 * q ^ (j - 2)). rewrite En, Em'. replace j with ((j - 2) + 2) at 1 by lia. rewrite Z.pow_add_r by lia. ring.
        - apply (Sq p Pp). exists (p ^ (k - 2) * m). rewrite En. replace k with ((k - 2) + 2) at 1 by lia. rewrite Z.pow_add_r by lia. ring. }
      destruct Y as (y & Gy & Ny). apply (two_factors n s t Hn On Hs Ot Em (p ^ k) m y L); [lia|lia|exact En|apply Cop; [exact Pp|lia|exact Nm]|exact Gy|exact Ny|exact ND|exact HL].
    + apply (three_factors n s t Hn On Hs Ot Em (p ^ k) (q ^ j) m' L); [lia|lia|apply O3; [exists (p ^ k * q ^ j); rewrite En, Em'; ring|lia]|rewrite En, Em'; ring|apply Cop; [exact Pp|lia|exact Npqj]|apply Cop; [exact Pp|lia|exact Np']|apply Cop; [exact Pq|lia|exact Nm']|exact ND|exact HL].
Qed.
