(** * C72: perfect squares, perfect powers and factorials; factorization with power detection *)
From Coq Require Import ZArith List Bool Lia Znumtheory Sorted.
From Verif Require Import Base NT Core_Model Classify_Model Classify2_Model Factor_Spec Factor_Model Factor_Proofs Primality_Model Factor_Props Classify_Proofs Classify_Proofs2.
Import ListNotations.
Open Scope Z_scope.

(** ** Squares *)
(** is_square(n) returns the nonnegative square root of a square and False (None) for every other integer. *)
Theorem C72_is_square n :
  (exists r, 0 <= r /\ r * r = n /\ is_square n = Ret (Some r)) \/ ((forall r, r * r <> n) /\ is_square n = Ret None).
Proof. apply is_square_ok. Qed.

(** The truth value of the result in Python: 0 and False are false. *)
Definition truth (o : option Z) : bool := match o with Some r => negb (r =? 0) | None => false end.

(** Used as a test, [if is_square(n)], it is right for every n but 0. *)
Theorem C72_is_square_test n : exists o, is_square n = Ret o /\ (truth o = true <-> n <> 0 /\ exists r, r * r = n).
Proof.
  destruct (is_square_ok n) as [(r & Hr & E & ->)|(N & ->)]; eexists; (split; [reflexivity|]); cbn [truth].
  - destruct (Z.eqb_spec r 0) as [->|Nr]; cbn [negb]; split; [discriminate|intros (H & _); lia|intros _|reflexivity]. split; [nia|exists r; exact E].
  - split; [discriminate|]. intros (_ & r & E). exfalso. exact (N r E).
Qed.
Theorem C72_is_square_zero_refuted : exists o, is_square 0 = Ret o /\ truth o = false /\ 0 * 0 = 0.
Proof. exists (Some 0). repeat split. Qed.

(** The same for the factorization of a number greater than 1; the empty factorization (of 1) raises, and a factorization
    with a sign gives False. *)
Theorem C72_is_square_factorization n l : factorization n l -> l <> [] ->
  (exists r, is_square_fac l = Ret (Some r) /\ 1 <= r /\ r * r = n) \/ (is_square_fac l = Ret None /\ forall r, r * r <> n).
Proof. apply is_square_fac_ok. Qed.
Theorem C72_is_square_factorization_of_one_refuted : factorization 1 [] /\ is_square_fac [] = Raise IndexError.
Proof. split; [|reflexivity]. split; [constructor|]. split; [intros p e []|reflexivity]. Qed.
Theorem C72_is_square_negative_factorization e l : is_square_fac ((-1, e) :: l) = Ret None.
Proof. reflexivity. Qed.

(** ** Powers *)
(** is_power(n) for n >= 2: (b, e) with b**e == n and e >= 2 the largest exponent of any representation of n, indeed a
    multiple of every such exponent; or False, and then n is no such power. *)
Theorem C72_is_power n : 2 <= n ->
  (is_power n = Ret None /\ forall c k, 2 <= k -> 0 <= c -> c ^ k <> n) \/
  (exists b e, is_power n = Ret (Some (b, e)) /\ 2 <= b /\ 2 <= e /\ b ^ e = n /\ forall c k, 1 <= k -> 0 <= c -> c ^ k = n -> (k | e) /\ k <= e).
Proof.
  intros Hn. unfold is_power. destruct (is_power_fuel_ok (S (Z.to_nat (bit_length n))) n ltac:(lia) ltac:(lia)) as [(E & [N|N])|(b & e & E & Hb & He & Eb & NP)]; [lia|left; split; [exact E|intros c k Hk Hc; apply N; assumption]|].
  right. exists b, e. split; [exact E|]. split; [exact Hb|]. split; [exact He|]. split; [exact Eb|]. intros c k Hk Hc Ec. assert (D : (k | e)) by (apply (max_exponent b e c k); [exact Hb|exact NP|lia|exact Hk|exact Hc|congruence]). split; [exact D|]. apply Z.divide_pos_le; [lia|exact D].
Qed.

(** 1 == 1**2 but is_power(1) is False; with an exponent it is found. *)
Theorem C72_is_power_one_refuted : is_power 1 = Ret None /\ 1 ^ 2 = 1 /\ is_power_k 1 2 = Ret (Some (1, 2)).
Proof. vm_compute. repeat split; reflexivity. Qed.

(** is_power(n, k): the k-th root, if n is a k-th power. *)
Theorem C72_is_power_exponent n k : 1 <= n -> 1 <= k ->
  (exists b, is_power_k n k = Ret (Some (b, k)) /\ 1 <= b /\ b ^ k = n) \/ (is_power_k n k = Ret None /\ forall b, 0 <= b -> b ^ k <> n).
Proof. apply is_power_k_ok. Qed.
Theorem C72_is_power_errors n k : (n < 1 -> is_power n = Raise ValueError) /\ (n < 1 \/ k < 1 -> is_power_k n k = Raise ValueError).
Proof.
  split.
  - intros H. unfold is_power. cbn [is_power_fuel]. destruct (Z.ltb_spec n 1); [reflexivity|lia].
  - intros H. unfold is_power_k. destruct (Z.ltb_spec k 1); [reflexivity|]. destruct (Z.ltb_spec n 1); [reflexivity|lia].
Qed.

(** The factorization arguments give the same answers. *)
Theorem C72_is_power_factorization n l : factorization n l -> l <> [] ->
  (is_power_fac l None = Ret None /\ forall c k, 2 <= k -> 0 <= c -> c ^ k <> n) \/
  (exists b e, is_power_fac l None = Ret (Some (b, e)) /\ 2 <= b /\ 2 <= e /\ b ^ e = n /\ forall c k, 1 <= k -> 0 <= c -> c ^ k = n -> (k | e) /\ k <= e).
Proof.
  intros F Nl. destruct (is_power_fac_ok n l F Nl) as [(E & N)|(b & e & E & Hb & He & Eb & NP)]; [left; split; [exact E|exact N]|].
  right. exists b, e. split; [exact E|]. split; [exact Hb|]. split; [exact He|]. split; [exact Eb|]. intros c k Hk Hc Ec. assert (D : (k | e)) by (apply (max_exponent b e c k); [exact Hb|exact NP|lia|exact Hk|exact Hc|congruence]). split; [exact D|]. apply Z.divide_pos_le; [lia|exact D].
Qed.
Theorem C72_is_power_agrees n l : factorization n l -> l <> [] -> is_power n = is_power_fac l None.
Proof.
  intros F Nl. assert (N2 := fac_ge2 n l F Nl).
  destruct (C72_is_power n N2) as [(E1 & H1)|(b & e & E1 & Hb & He & Eb & M1)], (C72_is_power_factorization n l F Nl) as [(E2 & H2)|(b' & e' & E2 & Hb' & He' & Eb' & M2)]; rewrite E1, E2.
  - reflexivity.
  - exfalso. apply (H1 b' e'); [lia..|exact Eb'].
  - exfalso. apply (H2 b e); [lia..|exact Eb].
  - assert (e = e') as <-. { destruct (M1 b' e' ltac:(lia) ltac:(lia) Eb') as (_ & X1). destruct (M2 b e ltac:(lia) ltac:(lia) Eb) as (_ & X2). lia. }
    assert (b = b') as <- by (apply (pow_base_inj b b' e); [lia..|congruence]). reflexivity.
Qed.
Theorem C72_is_power_factorization_exponent n l k : factorization n l -> l <> [] -> 1 <= k ->
  (exists b, is_power_fac l (Some k) = Ret (Some (b, k)) /\ 1 <= b /\ b ^ k = n) \/ (is_power_fac l (Some k) = Ret None /\ forall b, 1 <= b -> b ^ k <> n).
Proof. apply is_power_fac_k_ok. Qed.

(** is_power2(n): the least exponent instead. *)
Theorem C72_is_power2 n :
  (is_power2 n = Ret None /\ forall r k, 2 <= r -> 2 <= k -> r ^ k <> n) \/
  (exists r k, is_power2 n = Ret (Some (r, k)) /\ 2 <= r /\ 2 <= k /\ r ^ k = n /\ forall c j, 2 <= j < k -> 0 <= c -> c ^ j <> n).
Proof. apply is_power2_ok. Qed.

(** ** Factorials *)
Theorem C72_is_factorial n : exists b, is_factorial n = Ret b /\ (b = true <-> exists m, 1 <= m /\ zprod (zrange 1 (m + 1)) = n).
Proof. apply is_factorial_ok. Qed.

(** ** factor(n, skip_power_detection=False) *)
Definition scale (m : Z) (l : list (Z * Z)) : list (Z * Z) := map (fun '(p, e) => (p, e * m)) l.

Lemma ksort_scale m l : 1 <= m -> ksort (scale m l) = scale m (ksort l).
Proof.
  intros Hm. assert (KI : forall x l, kinsert (fst x, snd x * m) (scale m l) = scale m (kinsert x l)).
  { intros x l0. induction l0 as [|(p, e) l0 IH]; [destruct x; reflexivity|]. cbn [scale map kinsert fst snd]. fold (scale m l0). assert (C : (snd x * m <=? e * m) = (snd x <=? e)) by (destruct (Z.leb_spec (snd x * m) (e * m)), (Z.leb_spec (snd x) e); try reflexivity; nia). rewrite C. destruct ((fst x <? p) || (fst x =? p) && (snd x <=? e)); [destruct x; reflexivity|]. cbn [scale map]. fold (scale m (kinsert x l0)). rewrite IH. reflexivity. }
  induction l as [|(p, e) l IH]; [reflexivity|]. cbn [scale map ksort]. fold (scale m l). rewrite IH. apply (KI (p, e)).
Qed.

Lemma factor_main_scale find fuel b m : 1 <= m -> factor_main find fuel b m = (do l <- factor_main find fuel b 1; Ret (scale m l)).
Proof.
  intros Hm. unfold factor_main. destruct (if b <? 0 then (- b, [(-1, 1)]) else (b, [])) as (b1, f0). destruct (strip_small _ b1 f0) as [(b2, f1)|e|]; cbn [bind]; [|reflexivity..]. destruct (run _ fuel (O, b2, f1)) as [f|e|]; cbn [bind]; [|reflexivity..]. f_equal. change (map (fun '(p, e) => (p, e * m)) f) with (scale m f). change (map (fun '(p, e) => (p, e * 1)) f) with (scale 1 f). rewrite <- (ksort_scale m) by exact Hm. f_equal. unfold scale. rewrite map_map. apply map_ext. intros (p, e). f_equal. lia.
Qed.

Lemma scale_factorization P b m l : 1 <= m -> gen_factorization P b l -> gen_factorization P (b ^ m) (scale m l).
Proof.
  intros Hm (S & G & V). split; [|split].
  - clear G V. induction S as [|(p, e) l S IH F]; [constructor|]. cbn [scale map]. constructor; [exact IH|]. rewrite Forall_forall in *. intros (q, k) I. apply in_map_iff in I as ((q', k') & [= <- <-] & I). apply (F _ I).
  - intros p e I. apply in_map_iff in I as ((p', e') & [= <- <-] & I). destruct (G p' e' I) as (X & Y). split; [exact X|nia].
  - rewrite <- V. assert (GE : forall p e, In (p, e) l -> 1 <= e) by (intros p e I; apply (G p e I)). clear S G V. induction l as [|(p, e) l IH]; [cbn; rewrite Z.pow_1_l by lia; reflexivity|]. cbn [scale map]. rewrite !fac_value_cons, Z.pow_mul_l. fold (scale m l). rewrite IH by (intros q k I; apply (GE q); right; exact I). f_equal. assert (1 <= e) by (apply (GE p); left; reflexivity). apply Z.pow_mul_r; lia.
Qed.

(** For n >= 1 the answer is as good as without detection: the bases are prime, or pass the probable-prime test and exceed 10**12. *)
Theorem C18_factor_power_detection rnd fuel n l : 1 <= n -> factor_detect (rho_find rnd) fuel n = Ret l ->
  gen_factorization (fun q => prime q \/ (is_probable_prime q = Ret true /\ 10 ^ 12 < q)) n l.
Proof.
  intros Hn E. unfold factor_detect in E. destruct (Z.eqb_spec n 0); [lia|].
  assert (W : forall b l, 1 <= b -> factor_main (rho_find rnd) fuel b 1 = Ret l -> gen_factorization (fun q => prime q \/ (is_probable_prime q = Ret true /\ 10 ^ 12 < q)) b l).
  { intros b l0 Hb E0. assert (Nb : b <> 0) by lia. destruct (factor_main_sound _ (rho_find_sound rnd) fuel b l0 Nb E0) as [(_ & G)|(Lb & _)]; [|lia]. eapply gen_factorization_impl; [|exact G]. intros q (X & _). exact X. }
  destruct (Z.eq_dec n 1) as [->|N1].
  { change (is_power 1) with (Ret None : outcome (option (Z * Z))) in E. cbn [bind] in E. apply W; [lia|exact E]. }
  destruct (C72_is_power n ltac:(lia)) as [(E1 & _)|(b & e & E1 & Hb & He & Eb & _)]; rewrite E1 in E; cbn [bind] in E.
  - apply W; [lia|exact E].
  - rewrite factor_main_scale in E by lia. destruct (factor_main (rho_find rnd) fuel b 1) as [l0|x|] eqn:E0; cbn [bind] in E; try discriminate. injection E as <-. rewrite <- Eb. apply scale_factorization; [lia|]. apply W; [lia|exact E0].
Qed.
Theorem C18_factor_power_detection_negative_refuted rnd fuel n : n < 0 -> factor_detect (rho_find rnd) fuel n = Raise ValueError.
Proof. intros H. unfold factor_detect. destruct (Z.eqb_spec n 0); [lia|]. rewrite (proj1 (C72_is_power_errors n 1)) by lia. reflexivity. Qed.

(** ** Examples *)
Example squares : is_square 0 = Ret (Some 0) /\ is_square_fac [(2, 4); (3, 2)] = Ret (Some 12) /\ is_square_fac [(2, 3)] = Ret None /\ is_square (-4) = Ret None.
Proof. vm_compute. repeat split; reflexivity. Qed.
Example powers : is_power 64 = Ret (Some (2, 6)) /\ is_power2 64 = Ret (Some (8, 2)) /\ is_power_k 64 3 = Ret (Some (4, 3)) /\ is_power 1330 = Ret None /\
  is_power_fac [(2, 4); (5, 4)] None = Ret (Some (10, 4)) /\ is_power_fac [(2, 4); (5, 4)] (Some 2) = Ret (Some (100, 2)) /\ is_power_fac [(2, 3); (5, 2)] None = Ret None.
Proof. vm_compute. repeat split; reflexivity. Qed.
Example factorials : is_factorial 5040 = Ret true /\ is_factorial 5041 = Ret false /\ is_factorial 0 = Ret false.
Proof. vm_compute. repeat split; reflexivity. Qed.
Example factorization_example : factorization 10000 [(2, 4); (5, 4)].
Proof. split; [repeat constructor|]. split; [|reflexivity]. intros p e [[= <- <-]|[[= <- <-]|[]]]; (split; [|lia]); [exact prime_2|]. apply prime_intro; [lia|]. intros k Hk. assert (k = 1 \/ k = 2 \/ k = 3 \/ k = 4) as [->|[->|[->| ->]]] by lia; apply Zgcd_1_rel_prime; reflexivity. Qed.

Print Assumptions C72_is_square.
Print Assumptions C72_is_power.
Print Assumptions C72_is_power2.
Print Assumptions C72_is_factorial.
Print Assumptions C72_is_power_agrees.
Print Assumptions C18_factor_power_detection.
