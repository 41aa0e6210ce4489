(** * Arithmetic functions: totient, divisor sums, Moebius *)
From Coq Require Import ZArith List Bool Lia Znumtheory Sorted Permutation.
From Verif Require Import Base Lists Lists2 NT NT_Euler Factor_Model Factor_Spec Factor_Proofs
  Div_Proofs Arith_Model Arith_Spec.
Import ListNotations.
Open Scope Z_scope.

(** ** Totient *)
Lemma totient_units n : 0 < n -> totient n = Z.of_nat (length (units n)).
Proof.
  intros Hn. unfold totient, units. rewrite (zrange_cons 0 n) by lia.
  rewrite (zrange_snoc 1 n) by lia. cbn [Z.add]. rewrite filter_app, app_length. cbn [filter].
  rewrite Z.gcd_0_l, Z.gcd_diag, Z.abs_eq by lia. destruct (n =? 1); cbn [length]; lia.
Qed.

(** Chinese remainders *)
Lemma crt_exists a b x y : 0 < a -> 0 < b -> Z.gcd a b = 1 ->
  exists z, 0 <= z < a * b /\ z mod a = x mod a /\ z mod b = y mod b.
Proof.
  intros Ha Hb G. destruct (Z.gcd_bezout a b 1 G) as (u & v & E).
  exists ((x * (v * b) + y * (u * a)) mod (a * b)).
  split; [apply Z.mod_pos_bound; nia|].
  assert (M : forall z, (z mod (a * b)) mod a = z mod a /\ (z mod (a * b)) mod b = z mod b).
  { intros z. split; rewrite <- Znumtheory.Zmod_div_mod; try nia; [exists b; ring|exists a; ring]. }
  destruct (M (x * (v * b) + y * (u * a))) as [-> ->]. split.
  - replace (x * (v * b) + y * (u * a)) with (x + (y * u - x * u) * a) by (replace (v * b) with (1 - u * a) by lia; ring).
    apply Z.mod_add. lia.
  - replace (x * (v * b) + y * (u * a)) with (y + (x * v - y * v) * b) by (replace (u * a) with (1 - v * b) by lia; ring).
    apply Z.mod_add. lia.
Qed.

Lemma crt_unique a b x y : 0 < a -> 0 < b -> Z.gcd a b = 1 -> 0 <= x < a * b -> 0 <= y < a * b ->
  x mod a = y mod a -> x mod b = y mod b -> x = y.
Proof.
  intros Ha Hb G Hx Hy Ea Eb.
  assert (Da : (a | x - y)).
  { apply Z.mod_divide; [lia|]. rewrite Zminus_mod, Ea, Z.sub_diag. apply Z.mod_0_l. lia. }
  assert (Db : (b | x - y)).
  { apply Z.mod_divide; [lia|]. rewrite Zminus_mod, Eb, Z.sub_diag. apply Z.mod_0_l. lia. }
  destruct Da as [k Ek]. rewrite Ek in Db.
  assert (Dk : (b | k)).
  { apply Z.gauss with a; [rewrite Z.mul_comm; exact Db|rewrite Z.gcd_comm; exact G]. }
  destruct Dk as [j Ej]. subst k. assert (x - y = j * (a * b)) by lia.
  assert (j = 0); [|subst; lia]. assert (- (a * b) < j * (a * b) < a * b) by lia. nia.
Qed.

Lemma units_mul a b : 0 < a -> 0 < b -> Z.gcd a b = 1 ->
  length (units (a * b)) = (length (units a) * length (units b))%nat.
Proof.
  intros Ha Hb G. rewrite <- prod_length.
  rewrite <- (map_length (fun x => (x mod a, x mod b))). apply Permutation_length.
  assert (Gm : forall x, Z.gcd x (a * b) = 1 <-> Z.gcd x a = 1 /\ Z.gcd x b = 1).
  { intros x. split.
    - intros H. split; apply Z.divide_1_r_nonneg; try apply Z.gcd_nonneg; rewrite <- H;
        apply Z.gcd_greatest; try apply Z.gcd_divide_l; [apply Z.divide_mul_l|apply Z.divide_mul_r]; apply Z.gcd_divide_r.
    - intros [H1 H2]. rewrite Z.gcd_comm. apply gcd_1_mul; rewrite Z.gcd_comm; assumption. }
  apply NoDup_same_perm.
  - apply NoDup_map_inj; [apply units_NoDup|]. intros x y Hx Hy E. apply units_In in Hx as [Hx _]. apply units_In in Hy as [Hy _].
    injection E as E1 E2. apply (crt_unique a b); assumption.
  - assert (NP : forall (u v : list Z), NoDup u -> NoDup v -> NoDup (list_prod u v)).
    { induction u as [|x u IH]; intros v Nu Nv; cbn [list_prod]; [constructor|].
      inversion Nu as [|? ? N1 N2]; subst. apply NoDup_app_intro.
      - apply NoDup_map_inj; [exact Nv|]. intros p q _ _ E. congruence.
      - auto.
      - intros [p q] H H'. apply in_map_iff in H as (w & E & _). apply in_prod_iff in H' as [H' _].
        injection E as -> ->. contradiction. }
    apply NP; apply units_NoDup.
  - intros [x y]. rewrite in_prod_iff, !units_In, in_map_iff. split.
    + intros (z & E & Hz). apply units_In in Hz as [Hz Gz]. injection E as <- <-. apply Gm in Gz as [G1 G2].
      rewrite (gcd_mod a z Ha), (gcd_mod b z Hb). pose proof (Z.mod_pos_bound z a Ha). pose proof (Z.mod_pos_bound z b Hb). auto.
    + intros [[Hx Gx] [Hy Gy]]. destruct (crt_exists a b x y Ha Hb G) as (z & Hz & E1 & E2).
      rewrite (Z.mod_small x a Hx) in E1. rewrite (Z.mod_small y b Hy) in E2. exists z. rewrite E1, E2. split; [reflexivity|].
      apply units_In. split; [exact Hz|]. apply Gm. rewrite <- (gcd_mod a z), <- (gcd_mod b z), E1, E2 by assumption. auto.
Qed.

Lemma filter_length_compl {A} (p : A -> bool) l :
  (length (filter p l) + length (filter (fun x => negb (p x)) l) = length l)%nat.
Proof. induction l as [|x l IH]; [reflexivity|]. cbn [filter]. destruct (p x); cbn [negb length]; lia. Qed.

Lemma units_pow p e : prime p -> 1 <= e ->
  Z.of_nat (length (units (p ^ e))) = p ^ (e - 1) * (p - 1).
Proof.
  intros Hp He. pose proof (prime_ge2 p Hp) as Hp2.
  assert (Hpe : 0 < p ^ (e - 1)) by (apply Z.pow_pos_nonneg; lia).
  assert (Epe : p ^ e = p * p ^ (e - 1)).
  { replace e with (1 + (e - 1)) at 1 by lia. rewrite Z.pow_add_r, Z.pow_1_r by lia. reflexivity. }
  unfold units. set (f := fun x => Z.gcd x (p ^ e) =? 1).
  pose proof (filter_length_compl f (zrange 0 (p ^ e))) as L. rewrite zrange_length in L.
  assert (M : length (filter (fun x => negb (f x)) (zrange 0 (p ^ e))) = Z.to_nat (p ^ (e - 1))).
  { transitivity (length (map (fun x => p * x) (zrange 0 (p ^ (e - 1)))));
      [|rewrite map_length, zrange_length; f_equal; lia].
    apply Permutation_length, NoDup_same_perm.
    - apply NoDup_filter, zrange_NoDup.
    - apply NoDup_map_inj; [apply zrange_NoDup|]. intros x y _ _ E. nia.
    - intros x. rewrite filter_In, zrange_In, in_map_iff. unfold f. split.
      + intros [Hx G]. apply negb_true_iff, Z.eqb_neq in G.
        destruct (Zdivide_dec p x) as [D|ND].
        * destruct D as [c Ec]. exists c. split; [lia|]. apply zrange_In. nia.
        * exfalso. apply G. rewrite Z.gcd_comm. apply gcd_1_pow; [lia|]. apply Zgcd_1_rel_prime, prime_rel_prime; assumption.
      + intros (c & <- & Hc). apply zrange_In in Hc. split; [nia|]. apply negb_true_iff, Z.eqb_neq. intros G.
        assert (D : (p | Z.gcd (p * c) (p ^ e))).
        { apply Z.gcd_greatest; [exists c; ring|]. rewrite Epe. exists (p ^ (e - 1)). ring. }
        rewrite G in D. apply Z.divide_1_r in D. lia. }
  rewrite M in L. rewrite Z.sub_0_r in L. nia.
Qed.

Lemma fold_prod {A} (f : A -> Z) l a : fold_left (fun prod x => prod * f x) l a = a * zprod (map f l).
Proof.
  revert a. induction l as [|x l IH]; intros a; cbn [fold_left map]; [rewrite zprod_nil; ring|].
  rewrite IH, zprod_cons. ring.
Qed.

Lemma totient_fac n l : factorization n l ->
  totient n = zprod (map (fun pe => fst pe ^ (snd pe - 1) * (fst pe - 1)) l).
Proof.
  revert n. induction l as [|[p e] l IH]; intros n F.
  - destruct F as (_ & _ & V). cbn in V. subst n. reflexivity.
  - apply factorization_cons in F as (Hp & He & -> & F & Lt). pose proof (coprime_rest p l Hp F Lt) as G.
    pose proof (factorization_pos _ _ F). pose proof (prime_ge2 p Hp).
    assert (0 < p ^ e) by (apply Z.pow_pos_nonneg; lia).
    rewrite totient_units by nia. rewrite units_mul by (first [lia | apply gcd_1_pow; [lia|exact G]]).
    cbn [map fst snd]. rewrite zprod_cons, <- (IH _ F), totient_units by lia.
    rewrite Nat2Z.inj_mul, units_pow by assumption. reflexivity.
Qed.

(** ** Divisor sums *)
Lemma all_divisors_In n d : 0 < n -> (In d (all_divisors n) <-> 0 < d /\ (d | n)).
Proof.
  intros Hn. unfold all_divisors. rewrite filter_In, zrange_In, Z.eqb_eq. split.
  - intros [H E]. split; [lia|]. apply Z.mod_divide; [lia|exact E].
  - intros [H D]. pose proof (Z.divide_pos_le d n Hn D). split; [lia|]. apply Z.mod_divide; [lia|exact D].
Qed.

Lemma all_divisors_NoDup n : NoDup (all_divisors n).
Proof. apply NoDup_filter, zrange_NoDup. Qed.

Lemma all_divisors_fac n l : factorization n l -> Permutation (all_divisors n) (fac_divisors l).
Proof.
  intros F. pose proof (factorization_pos n l F). destruct (fac_divisors_spec n l F) as [N I].
  apply NoDup_same_perm; [apply all_divisors_NoDup|exact N|]. intros d. rewrite all_divisors_In, I by lia. reflexivity.
Qed.

Lemma tau_fac n l : factorization n l -> tau n = zprod (map (fun pe => snd pe + 1) l).
Proof.
  intros F. unfold tau. rewrite (Permutation_length (all_divisors_fac n l F)). revert n F.
  induction l as [|[p e] l IH]; intros n F; [reflexivity|].
  apply factorization_cons in F as (Hp & He & -> & F & Lt). specialize (IH _ F).
  rewrite fac_divisors_cons, (flat_map_length_const _ _ (length (fac_divisors l))).
  - rewrite zrange_length, Nat2Z.inj_mul, IH. cbn [map fst snd]. rewrite zprod_cons. lia.
  - intros x _. apply map_length.
Qed.

Lemma zsum_flat_map {A} (f : A -> list Z) l : zsum (flat_map f l) = zsum (map (fun x => zsum (f x)) l).
Proof. induction l as [|x l IH]; [reflexivity|]. cbn [flat_map map]. rewrite zsum_app, zsum_cons, IH. reflexivity. Qed.

Lemma zsum_map_mul (c : Z) {A} (f : A -> Z) l : zsum (map (fun x => c * f x) l) = c * zsum (map f l).
Proof. induction l as [|x l IH]; [cbn; ring|]. cbn [map]. rewrite !zsum_cons, IH. ring. Qed.

Lemma zsum_map_mul_r (c : Z) {A} (f : A -> Z) l : zsum (map (fun x => f x * c) l) = zsum (map f l) * c.
Proof. induction l as [|x l IH]; [cbn; ring|]. cbn [map]. rewrite !zsum_cons, IH. ring. Qed.

Lemma geometric x e : 0 <= e -> zsum (map (fun i => x ^ i) (zrange 0 (e + 1))) * (x - 1) = x ^ (e + 1) - 1.
Proof.
  intros He. pattern e. apply natlike_ind; [|intros k Hk IH|exact He].
  - change (zrange 0 (0 + 1)) with [0]. cbn [map]. rewrite zsum_cons, zsum_nil, Z.pow_0_r. change (0 + 1) with 1. rewrite Z.pow_1_r. ring.
  - rewrite (zrange_snoc 0 (Z.succ k)) by lia. rewrite map_app, zsum_app. cbn [map].
    unfold Z.succ in *. rewrite zsum_cons, zsum_nil, Z.mul_add_distr_r, IH.
    rewrite (Z.pow_add_r x (k + 1) 1), Z.pow_1_r by lia. ring.
Qed.

Lemma pow_ge2 p k : 2 <= p -> 1 <= k -> 2 <= p ^ k.
Proof.
  intros Hp Hk. replace k with (1 + (k - 1)) by lia. rewrite Z.pow_add_r, Z.pow_1_r by lia.
  assert (0 < p ^ (k - 1)) by (apply Z.pow_pos_nonneg; lia). nia.
Qed.

Lemma sigma_fac k n l : 1 <= k -> factorization n l ->
  sigma k n = zprod (map (fun pe => ((fst pe ^ k) ^ (snd pe + 1) - 1) / (fst pe ^ k - 1)) l).
Proof.
  intros Hk F. unfold sigma.
  rewrite (zsum_perm _ _ (Permutation_map (fun d => d ^ k) (all_divisors_fac n l F))). revert n F.
  induction l as [|[p e] l IH]; intros n F; [change (fac_divisors []) with [1]; cbn [map]; rewrite zsum_cons, zsum_nil, Z.pow_1_l by lia; reflexivity|].
  apply factorization_cons in F as (Hp & He & -> & F & Lt). specialize (IH _ F).
  rewrite fac_divisors_cons.
  assert (E : map (fun d => d ^ k) (flat_map (fun i => map (fun d => p ^ i * d) (fac_divisors l)) (zrange 0 (e + 1)))
      = flat_map (fun i => map (fun d => (p ^ i * d) ^ k) (fac_divisors l)) (zrange 0 (e + 1))).
  { rewrite !flat_map_concat_map, concat_map, map_map. f_equal. apply map_ext. intros i. apply map_map. }
  rewrite E, zsum_flat_map. cbn [map fst snd]. rewrite zprod_cons, <- IH.
  rewrite (map_ext_in _ (fun i => (p ^ k) ^ i * zsum (map (fun d => d ^ k) (fac_divisors l)))).
  - rewrite zsum_map_mul_r. f_equal. pose proof (prime_ge2 p Hp). pose proof (pow_ge2 p k ltac:(lia) Hk).
    rewrite <- (geometric (p ^ k) e) by lia. rewrite Z.div_mul by lia. reflexivity.
  - intros i Hi. apply zrange_In in Hi. rewrite <- zsum_map_mul. f_equal. apply map_ext. intros d.
    rewrite Z.pow_mul_l. f_equal. rewrite <- !Z.pow_mul_r by lia. f_equal. lia.
Qed.

(** ** Moebius *)
Lemma squarefree_fac n l : factorization n l ->
  (forallb (fun '(p, e) => e =? 1) l = true <-> forall p, prime p -> ~ (p * p | n)).
Proof.
  intros F. rewrite forallb_forall. split.
  - intros H p Hp D. assert (Dp : (p | n)) by (apply Z.divide_trans with (p * p); [exists p; ring|exact D]).
    apply (factorization_prime_divisor n l p F Hp) in Dp. apply in_map_iff in Dp as ([q e] & E & Hin). cbn in E. subst q.
    specialize (H _ Hin). cbn in H. apply Z.eqb_eq in H. subst e.
    destruct (factorization_exponent n l p 1 F Hin) as [_ ND]. apply ND.
    change (p ^ (1 + 1)) with (p * (p * 1)). rewrite Z.mul_1_r. exact D.
  - intros H [p e] Hin. apply Z.eqb_eq. pose proof F as (_ & A & _). destruct (A p e Hin) as [Hp He].
    destruct (factorization_exponent n l p e F Hin) as [D _].
    destruct (Z.eq_dec e 1) as [|Ne]; [assumption|exfalso]. apply (H p Hp).
    apply Z.divide_trans with (p ^ e); [|exact D]. exists (p ^ (e - 2)). replace e with ((e - 2) + 2) at 1 by lia.
    rewrite Z.pow_add_r by lia. rewrite Z.pow_2_r. ring.
Qed.

Lemma moebius_fac n l : factorization n l ->
  is_moebius n (if forallb (fun '(p, e) => e =? 1) l then (-1) ^ Z.of_nat (length l) else 0).
Proof.
  intros F. pose proof (squarefree_fac n l F) as Q. destruct (forallb _ l) eqn:B.
  - right. split; [apply Q; reflexivity|]. exists (map fst l). split.
    + destruct F as (S & _). clear - S. induction S as [|x l S IH H]; cbn [map]; constructor; [|exact IH].
      intros X. apply in_map_iff in X as (y & E & Hy). rewrite Forall_forall in H. specialize (H y Hy). lia.
    + split; [|rewrite map_length; reflexivity]. intros p. split.
      * intros H. assert (Hp : prime p).
        { apply in_map_iff in H as ([q e] & <- & H). destruct F as (_ & A & _). apply A in H. apply H. }
        split; [exact Hp|]. apply (factorization_prime_divisor n l p F Hp). exact H.
      * intros [Hp D]. apply (factorization_prime_divisor n l p F Hp). exact D.
  - left. assert (X : existsb (fun '(p, e) => negb (e =? 1)) l = true).
    { clear - B. induction l as [|[p e] l IH]; cbn in *; [discriminate|]. destruct (e =? 1); cbn in *; auto. }
    apply existsb_exists in X as ([p e] & Hin & He). apply negb_true_iff, Z.eqb_neq in He.
    pose proof F as (_ & A & _). destruct (A p e Hin) as [Hp He1]. exists p. split; [exact Hp|]. split; [|reflexivity].
    destruct (factorization_exponent n l p e F Hin) as [D _].
    apply Z.divide_trans with (p ^ e); [|exact D]. exists (p ^ (e - 2)). replace e with ((e - 2) + 2) at 1 by lia.
    rewrite Z.pow_add_r by lia. rewrite Z.pow_2_r. ring.
Qed.

Lemma is_moebius_unique n m m' : is_moebius n m -> is_moebius n m' -> m = m'.
Proof.
  intros [(p & Hp & D & ->)|[S (ps & N & I & ->)]] [(p' & Hp' & D' & ->)|[S' (ps' & N' & I' & ->)]].
  - reflexivity.
  - exfalso. apply (S' p Hp D).
  - exfalso. apply (S p' Hp' D').
  - do 2 f_equal. apply Permutation_length, NoDup_same_perm; [exact N|exact N'|]. intros x. rewrite I, I'. reflexivity.
Qed.
