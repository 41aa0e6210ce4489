(** * Residues, Euler's theorem, Fermat's little theorem *)
From Coq Require Import ZArith List Lia Znumtheory Bool Permutation FinFun.
From Verif Require Import Base NT.
Import ListNotations.
Open Scope Z_scope.

(** Reduced residues modulo [n]: [x] in [0..n-1] coprime to [n] ([{0}] for n = 1). *)
Definition units (n : Z) : list Z := filter (fun x => Z.gcd x n =? 1) (zrange 0 n).

Lemma units_In n x : In x (units n) <-> 0 <= x < n /\ Z.gcd x n = 1.
Proof. unfold units. rewrite filter_In, zrange_In, Z.eqb_eq. reflexivity. Qed.

Lemma units_NoDup n : NoDup (units n).
Proof. apply NoDup_filter, zrange_NoDup. Qed.

Lemma gcd_mod n x : 0 < n -> Z.gcd (x mod n) n = Z.gcd x n.
Proof. intros Hn. rewrite Z.gcd_mod by lia. apply Z.gcd_comm. Qed.

Lemma gcd_1_mul a b n : Z.gcd a n = 1 -> Z.gcd b n = 1 -> Z.gcd (a * b) n = 1.
Proof.
  intros Ha Hb. apply Zgcd_1_rel_prime. apply rel_prime_sym, rel_prime_mult; apply rel_prime_sym, Zgcd_1_rel_prime; assumption.
Qed.

Lemma gcd_1_pow a n k : 0 <= k -> Z.gcd a n = 1 -> Z.gcd (a ^ k) n = 1.
Proof.
  intros Hk Ha. pattern k. apply natlike_ind; [| |exact Hk].
  - rewrite Z.pow_0_r. apply Z.gcd_1_l.
  - intros j Hj IH. rewrite Z.pow_succ_r by lia. apply gcd_1_mul; assumption.
Qed.

(** cancellation modulo n *)
Lemma mod_cancel a x y n : 0 < n -> Z.gcd a n = 1 -> (a * x) mod n = (a * y) mod n -> x mod n = y mod n.
Proof.
  intros Hn Ha E. assert (D : (n | a * (x - y))).
  { apply Z.mod_divide; [lia|]. rewrite Z.mul_sub_distr_l, Zminus_mod, E, Z.sub_diag. apply Z.mod_0_l. lia. }
  apply Z.gauss in D; [|rewrite Z.gcd_comm; exact Ha].
  destruct D as [c Hc]. replace x with (y + c * n) by lia. apply Z_mod_plus_full.
Qed.

Lemma zprod_perm l l' : Permutation l l' -> zprod l = zprod l'.
Proof. induction 1; rewrite ?zprod_cons; try congruence; try ring; lia. Qed.

Lemma zsum_perm l l' : Permutation l l' -> zsum l = zsum l'.
Proof. induction 1; rewrite ?zsum_cons; try congruence; try ring; lia. Qed.

Lemma zprod_map_mod n (f : Z -> Z) l : zprod (map (fun x => f x mod n) l) mod n = zprod (map f l) mod n.
Proof.
  induction l as [|x l IH]; [reflexivity|]. cbn [map]. rewrite !zprod_cons.
  rewrite Zmult_mod, IH, Zmod_mod, <- Zmult_mod. reflexivity.
Qed.

Lemma zprod_map_mul a l : zprod (map (fun x => a * x) l) = a ^ Z.of_nat (length l) * zprod l.
Proof.
  induction l as [|x l IH]; [reflexivity|]. cbn [map length]. rewrite !zprod_cons, IH.
  rewrite Nat2Z.inj_succ, Z.pow_succ_r by lia. ring.
Qed.

Lemma zprod_coprime n l : (forall x, In x l -> Z.gcd x n = 1) -> Z.gcd (zprod l) n = 1.
Proof.
  induction l as [|x l IH]; intros H.
  - apply Z.gcd_1_l.
  - rewrite zprod_cons. apply gcd_1_mul; [apply H; left; reflexivity|apply IH; intros; apply H; right; assumption].
Qed.

Lemma units_mul_perm a n : 0 < n -> Z.gcd a n = 1 ->
  Permutation (map (fun x => (a * x) mod n) (units n)) (units n).
Proof.
  intros Hn Ha. apply NoDup_Permutation_bis.
  - apply (NoDup_map_inv (fun x => x)). rewrite map_id.
    assert (G : forall l, NoDup l -> (forall x, In x l -> 0 <= x < n) ->
      NoDup (map (fun x => (a * x) mod n) l)).
    { induction l as [|x l IH]; intros ND Hl; [constructor|]. inversion ND; subst.
      cbn [map]. constructor; [|apply IH; [assumption|intros; apply Hl; right; assumption]].
      intros Hin. apply in_map_iff in Hin as (y & E & Hy).
      apply mod_cancel in E; auto.
      rewrite !Z.mod_small in E; [subst; contradiction| |]; apply Hl; [left; reflexivity|right; exact Hy]. }
    apply G; [apply units_NoDup|]. intros x Hx. apply units_In in Hx. tauto.
  - rewrite map_length. lia.
  - intros y Hy. apply in_map_iff in Hy as (x & <- & Hx). apply units_In in Hx. apply units_In.
    split; [apply Z.mod_pos_bound; lia|]. rewrite gcd_mod by lia. apply gcd_1_mul; tauto.
Qed.

(** Euler's theorem. *)
Theorem euler a n : 0 < n -> Z.gcd a n = 1 -> a ^ Z.of_nat (length (units n)) mod n = 1 mod n.
Proof.
  intros Hn Ha. pose proof (zprod_perm _ _ (units_mul_perm a n Hn Ha)) as E.
  assert (E2 : (zprod (units n) * a ^ Z.of_nat (length (units n))) mod n = (zprod (units n) * 1) mod n).
  { rewrite Z.mul_1_r. rewrite <- E at 2. rewrite zprod_map_mod, zprod_map_mul. f_equal. ring. }
  apply mod_cancel in E2; auto. apply zprod_coprime. intros x Hx. apply units_In in Hx. tauto.
Qed.

Lemma units_prime p : prime p -> units p = zrange 1 p.
Proof.
  intros Hp. pose proof (prime_ge2 p Hp). unfold units. rewrite zrange_cons by lia. cbn [filter].
  rewrite Z.gcd_0_l, Z.abs_eq by lia. destruct (Z.eqb_spec p 1); [lia|].
  replace (0 + 1) with 1 by lia.
  assert (G : forall l, (forall x, In x l -> 1 <= x < p) -> filter (fun x => Z.gcd x p =? 1) l = l).
  { induction l as [|x l IH]; intros Hl; [reflexivity|]. cbn [filter].
    assert (Hx : 1 <= x < p) by (apply Hl; left; reflexivity).
    assert (Z.gcd x p = 1) as ->.
    { rewrite Z.gcd_comm. apply Zgcd_1_rel_prime, prime_rel_prime; [exact Hp|].
      intros D. apply Z.divide_pos_le in D; lia. }
    rewrite Z.eqb_refl. f_equal. apply IH. intros; apply Hl; right; assumption. }
  apply G. intros x Hx. rewrite zrange_In in Hx. exact Hx.
Qed.

(** Fermat's little theorem. *)
Theorem fermat a p : prime p -> ~ (p | a) -> a ^ (p - 1) mod p = 1.
Proof.
  intros Hp Ha. pose proof (prime_ge2 p Hp).
  assert (G : Z.gcd a p = 1) by (rewrite Z.gcd_comm; apply Zgcd_1_rel_prime, prime_rel_prime; assumption).
  pose proof (euler a p ltac:(lia) G) as E. rewrite units_prime, zrange_length, Z2Nat.id in E by (assumption || lia).
  rewrite E. apply Z.mod_1_l. lia.
Qed.

(** Square roots of 1 modulo a prime. *)
Lemma sqrt1_prime x p : prime p -> (x * x) mod p = 1 -> x mod p = 1 \/ x mod p = p - 1.
Proof.
  intros Hp E. pose proof (prime_ge2 p Hp).
  assert (D : (p | (x - 1) * (x + 1))).
  { apply Z.mod_divide; [lia|]. replace ((x - 1) * (x + 1)) with (x * x - 1) by ring.
    rewrite Zminus_mod, E, (Z.mod_small 1 p) by lia. apply Z.mod_0_l. lia. }
  apply prime_mult in D; [|exact Hp]. destruct D as [[c Hc]|[c Hc]].
  - left. replace x with (1 + c * p) by lia. rewrite Z_mod_plus_full. apply Z.mod_small. lia.
  - right. replace x with ((p - 1) + (c - 1) * p) by lia. rewrite Z_mod_plus_full. apply Z.mod_small. lia.
Qed.
