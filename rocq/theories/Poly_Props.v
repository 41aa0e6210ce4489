(** * C47-C51: polynomials and power series with integer coefficients
    [coef A i] is the coefficient of x^i, [conv] the product of series, [cpow] its powers. *)
From Coq Require Import ZArith List Lia Bool.
From Verif Require Import Base Py Lists Sums Poly_Spec Poly_Model Poly_Proofs Poly_Proofs2 Poly_Proofs3 Poly_Proofs4 Poly_Proofs5.
Import ListNotations.
Open Scope Z_scope.

(** ** C47 *)
Theorem C47_list_add A B : exists C, list_add A B = Ret C /\ length C = Nat.max (length A) (length B) /\ forall i, coef C i = coef A i + coef B i.
Proof. destruct (list_add_ok A B) as (C & E & L & R). exists C. split; [exact E|]. split; [unfold zlen in L; lia|exact R]. Qed.

Theorem C47_list_subtract A B : exists C, list_subtract A B = Ret C /\ length C = Nat.max (length A) (length B) /\ forall i, coef C i = coef A i - coef B i.
Proof. destruct (list_subtract_ok A B) as (C & E & L & R). exists C. split; [exact E|]. split; [unfold zlen in L; lia|exact R]. Qed.

Theorem C47_mul_classical M N : exists P, mul_classical M N = Ret P /\ (forall i, coef P i = conv (coef M) (coef N) i) /\
  (M <> [] -> N <> [] -> length P = (length M + length N - 1)%nat) /\ (M = [] \/ N = [] -> P = []).
Proof.
  destruct (mul_classical_ok M N) as (P & E & L & R). exists P. split; [exact E|]. split; [exact R|]. split.
  - intros HM HN. unfold zlen in L. destruct M as [|m M], N as [|n N]; try congruence. cbn [length] in *. destruct (Z.eqb_spec (Z.of_nat (S (length M))) 0); [lia|]. destruct (Z.eqb_spec (Z.of_nat (S (length N))) 0); [lia|]. cbn [orb] in L. lia.
  - intros [-> | ->]; cbn in E; [congruence|]. unfold mul_classical in E. cbn in E. rewrite orb_true_r in E. congruence.
Qed.

(** The recursive multiplication returns the same list as the classical one. *)
Theorem C47_mul_karatsuba M N : mul_karatsuba M N = mul_classical M N.
Proof. apply mul_karatsuba_eq. Qed.

(** ps_mult_karatsuba(M, N, kthresh), kthresh >= 2 (the default is 40). *)
Theorem C47_ps_mult_karatsuba kthresh M N : 2 <= kthresh -> exists P, ps_mult_karatsuba kthresh M N = Ret P /\ forall i, coef P i = conv (coef M) (coef N) i.
Proof. intros H. unfold ps_mult_karatsuba. apply ps_karatsuba_ok; [exact H|]. unfold zlen. lia. Qed.
Theorem C47_ps_mult_classical M N : exists P, ps_mult_classical M N = Ret P /\ forall i, coef P i = conv (coef M) (coef N) i.
Proof. destruct (mul_loop_ok M N) as (P & E & _ & R). exists P. split; [exact E|exact R]. Qed.
(** With the threshold 1 the recursion never ends, however deep it may go. *)
Theorem C47_ps_mult_karatsuba_threshold_refuted a b fuel : ps_karatsuba fuel 1 [a] [b] = Diverge.
Proof. apply ps_karatsuba_loops. lia. Qed.

Example C47_example : mul_karatsuba (zrange 1 40) (zrange 5 41) = mul_classical (zrange 1 40) (zrange 5 41) /\ mul_classical [1; 2] [3; 4; 5] = Ret [3; 10; 13; 10] /\
  list_subtract [1] [1; 2; 3] = Ret [0; -2; -3].
Proof. vm_compute. auto. Qed.

(** ** C48 *)
Theorem C48_power_jcp A k : (exists i, coef A i <> 0) -> 0 <= k -> exists P, power_jcp A k = Ret P /\ forall i, coef P i = cpow (coef A) (Z.to_nat k) i.
Proof. apply power_jcp_ok. Qed.
(** The zero polynomial has no powers: IndexError. *)
Theorem C48_power_jcp_zero_refuted A k : (forall i, coef A i = 0) -> power_jcp A k = Raise IndexError.
Proof. intros H. unfold power_jcp. destruct (first_nonzero_ok A) as [(_ & E)|(s & _ & _ & N & _)]; [rewrite E; reflexivity|]. exfalso. apply N, H. Qed.
Theorem C48_ps_power A k : coef A 0 <> 0 -> 0 <= k -> exists P, ps_power A k = Ret P /\ length P = length A /\ forall i, i < Z.of_nat (length A) -> coef P i = cpow (coef A) (Z.to_nat k) i.
Proof. intros H Hk. destruct (ps_power_ok A k H Hk) as (P & E & L & R). exists P. split; [exact E|]. split; [unfold zlen in L; lia|exact R]. Qed.
(** A series without constant term: ZeroDivisionError, whatever the exponent. *)
Theorem C48_ps_power_zero_refuted A k : (2 <= length A)%nat -> coef A 0 = 0 -> ps_power A k = Raise ZeroDivisionError.
Proof.
  intros L Z0. destruct A as [|a [|b A]]; cbn [length] in L; try lia. assert (a = 0) as -> by exact Z0.
  assert (Hn : len (0 :: b :: A) = 2 + Z.of_nat (length A)) by (unfold len; cbn [length]; lia). unfold ps_power. rewrite Hn.
  change (pyget (0 :: b :: A) 0) with (Ret 0 : outcome Z). cbn [bind]. unfold int_pow. destruct (0 <=? k); [|reflexivity]. cbn [bind].
  assert (Ez : zeros (2 + Z.of_nat (length A)) = 0 :: 0 :: repeat 0 (length A)) by (unfold zeros; replace (Z.to_nat (2 + Z.of_nat (length A))) with (S (S (length A))) by lia; reflexivity).
  rewrite Ez, pyset_upd by (cbn [length]; lia). change (upd (0 :: 0 :: repeat 0 (length A)) (Z.to_nat 0) (0 ^ k)) with (0 ^ k :: 0 :: repeat 0 (length A)). cbn [bind].
  rewrite (zrange_cons 1) by lia. cbn [foldM]. change (zrange 1 (1 + 1)) with [1]. cbn [foldM].
  rewrite (pyget_nth (0 :: b :: A) 1 0) by (cbn [length]; lia). rewrite (pyget_nth (0 ^ k :: _) (1 - 1) 0) by (cbn [length]; lia). reflexivity.
Qed.
Theorem C48_power_binary p k : 0 <= k -> exists w, power_binary p k = Ret w /\ normal w /\ forall i, coef w i = cpow (coef p) (Z.to_nat k) i.
Proof. apply power_binary_ok. Qed.
(** p ** k and p.power_binary(k) are the same polynomial. *)
Theorem C48_pow p k : (exists i, coef p i <> 0) -> 0 <= k -> exists s, p_pow p k = Ret s /\ normal s /\ (forall i, coef s i = cpow (coef p) (Z.to_nat k) i) /\ power_binary p k = Ret s.
Proof.
  intros H Hk. destruct (p_pow_ok p k H Hk) as (s & E & N & R). exists s. split; [exact E|]. split; [exact N|]. split; [exact R|]. destruct (power_binary_ok p k Hk) as (w & E' & N' & R'). rewrite E'. f_equal. apply normal_ext; try assumption. intros i. rewrite R, R'. reflexivity.
Qed.

Example C48_example : power_jcp [0; 2; -1] 3 = Ret [0; 0; 0; 8; -12; 6; -1] /\ ps_power [2; 1; 0; 0] 3 = Ret [8; 12; 6; 1] /\ ps_power [0; 1] 2 = Raise ZeroDivisionError /\ power_binary [1; 1] 5 = Ret [1; 5; 10; 10; 5; 1].
Proof. vm_compute. auto. Qed.

(** ** C49 *)
(** l is the leading coefficient of v, m and n the degrees.  The remainder has degree < n (it is
    [0] for n = 0). *)
Theorem C49_pseudo_quo_rem u v : normal u -> normal v ->
  let m := Z.of_nat (length u) - 1 in let n := Z.of_nat (length v) - 1 in let l := last v 0 in
  (m < n -> pseudo_quo_rem u v = Ret ([0], u)) /\
  (n <= m -> exists q r, pseudo_quo_rem u v = Ret (q, r) /\ normal q /\ normal r /\
     (forall i, l ^ (m - n + 1) * coef u i = conv (coef q) (coef v) i + coef r i) /\ forall i, n <= i -> coef r i = 0).
Proof.
  intros (Nu & _) (Nv & _) m n l. unfold l. rewrite last_rd by exact Nv. destruct (pseudo_quo_rem_ok u v Nu Nv) as [(L & E)|(L & q & r & E & Nq & Nr & T & R)].
  - split; [intros _; exact E|]. unfold zlen in L. unfold m, n. lia.
  - split; [unfold zlen in L; unfold m, n; lia|]. intros _. exists q, r. auto.
Qed.

(** quo_rem, for a divisor other than 0.  It raises ValueError when the leading coefficient of b does not
    divide that of a; otherwise a = q*b + r, and the degree of r is less than that of b if the
    leading coefficient of b is 1 or -1. *)
Theorem C49_quo_rem a b : normal a -> normal b -> last b 0 <> 0 ->
  let k := length a in let l := length b in
  ((k < l)%nat -> quo_rem a b = Ret ([0], a)) /\
  ((l <= k)%nat -> last a 0 mod last b 0 <> 0 -> quo_rem a b = Raise ValueError) /\
  ((l <= k)%nat -> last a 0 mod last b 0 = 0 -> exists q r, quo_rem a b = Ret (q, r) /\ normal q /\ normal r /\
     (forall i, coef a i = conv (coef q) (coef b) i + coef r i) /\
     (last b 0 = 1 \/ last b 0 = -1 -> forall i, Z.of_nat l - 1 <= i -> coef r i = 0)).
Proof.
  intros Na Nb Hl k l. pose proof Na as (Ha & _). pose proof Nb as (Hb & _). rewrite (last_rd a Ha), (last_rd b Hb) in *. destruct (quo_rem_ok a b Hb Hl) as (H1 & H2 & H3). unfold zlen in H1, H2, H3. unfold k, l. split; [|split].
  - intros L. rewrite H1 by lia. rewrite (normal_polynomial a Na). reflexivity.
  - intros L. apply H2. lia.
  - intros L. apply H3. lia.
Qed.
Theorem C49_quo_rem_zero a : normal a -> quo_rem a [0] = Raise ZeroDivisionError.
Proof. intros (N & _). rewrite quo_rem_unfold; [reflexivity|discriminate|]. unfold zlen. destruct a; [congruence|cbn [length]; lia]. Qed.
(** When b divides a, quo_rem returns the quotient and 0. *)
Theorem C49_quo_rem_exact a b Q : normal a -> normal b -> normal Q -> last b 0 <> 0 -> (exists i, coef a i <> 0) -> (forall i, coef a i = conv (coef Q) (coef b) i) -> quo_rem a b = Ret (Q, [0]).
Proof. intros Na (Hb & _) NQ Hl. rewrite (last_rd b Hb) in Hl. apply quo_rem_exact; assumption. Qed.
(** For every leading coefficient L of b: the result is the only pair with a = q*b + r in which the
    coefficients of r from the degree of b on are residues modulo L, from 0 to L - 1 (or L + 1 to 0). *)
Theorem C49_quo_rem_floor a b : normal a -> normal b -> last b 0 <> 0 -> (length b <= length a)%nat -> last a 0 mod last b 0 = 0 ->
  (exists q r, quo_rem a b = Ret (q, r)) /\
  forall q r, quo_rem a b = Ret (q, r) <-> normal q /\ normal r /\ (forall i, coef a i = conv (coef q) (coef b) i + coef r i) /\
    forall i, Z.of_nat (length b) - 1 <= i -> 0 <= coef r i < last b 0 \/ last b 0 < coef r i <= 0.
Proof.
  intros (Ha & _) (Hb & _) Hl L M. rewrite (last_rd a Ha), (last_rd b Hb) in *. destruct (quo_rem_floor a b Hb Hl ltac:(unfold zlen; lia) M) as (q & r & E & Nq & Nr & R & J).
  split; [eauto|]. intros q' r'. rewrite E. split.
  - intros X. injection X as <- <-. split; [exact Nq|]. split; [exact Nr|]. split; [exact R|]. intros i Hi. apply residue_iff; [exact Hl|]. apply J. unfold zlen. lia.
  - intros (Nq' & Nr' & R' & J'). destruct (quo_rem_unique b q r q' r' Hb Hl Nq Nr Nq' Nr') as (-> & ->); [|exact J| |reflexivity].
    + intros t. rewrite <- R. apply R'.
    + intros t Ht. apply residue_iff; [exact Hl|]. apply J'. unfold zlen in Ht. lia.
Qed.
Print Assumptions C49_quo_rem_floor.
(** So for a leading coefficient other than 1 and -1 the remainder may have the degree of the divisor:
    m*x^2 + x by m*x. *)
Theorem C49_quo_rem_degree_refuted m : 2 <= m -> quo_rem [0; 1; m] [0; m] = Ret ([0; 1], [0; 1]).
Proof.
  intros Hm. assert (N : normal [0; 1; m] /\ normal [0; m] /\ normal [0; 1]) by (repeat split; try discriminate; right; cbn [last]; lia).
  apply C49_quo_rem_floor; try tauto; try (cbn [last]; lia); [cbn; lia|cbn [last]; apply Z.mod_same; lia|]. split; [tauto|]. split; [tauto|]. split.
  - intros i. rewrite (conv_finite (coef [0; 1]) (coef [0; m]) 2 i); [|lia|intros; apply rd_top; unfold zlen; cbn [length]; lia|intros; apply rd_neg; lia].
    rewrite (Sum_first 0 2), (Sum_first 1 2), Sum_nil by lia. change (coef [0; 1] 0) with 0. change (coef [0; 1] 1) with 1. rewrite Z.mul_0_l, Z.mul_1_l, Z.add_0_l, Z.add_0_r.
    destruct (Z.lt_ge_cases i 0) as [I0|I0]; [rewrite !coef_rd, !rd_neg by lia; reflexivity|]. destruct (Z.lt_ge_cases i 3) as [I|I].
    + assert (i = 0 \/ i = 1 \/ i = 2) as [->|[->| ->]] by lia; [reflexivity|reflexivity|change (m = m + 0); lia].
    + rewrite !coef_rd, (rd_top [0; 1; m]), (rd_top [0; 1]), (rd_top [0; m]) by (unfold zlen; cbn [length]; lia). lia.
  - intros i Hi. cbn [length] in Hi. destruct (Z.eq_dec i 1) as [->|]; [left; change (0 <= 1 < m); lia|]. rewrite coef_rd, rd_top by (unfold zlen; cbn [length]; lia). cbn [last]. lia.
Qed.
Example C49_degree_ex : quo_rem [1; 5; 2] [0; 2] = Ret ([2; 1], [1; 1]).
Proof. reflexivity. Qed.

Example C49_example : pseudo_quo_rem [1; 0; 3; 2] [5; 3] = Ret ([5; -3; 18], [2]). Proof. reflexivity. Qed.
Example C49_example2 : quo_rem [-1; 0; 0; 1] [-1; 1] = Ret ([1; 1; 1], [0]) /\ quo_rem [1; 1] [2; 2; 1] = Ret ([0], [1; 1]) /\ normal [-1; 0; 0; 1] /\ normal [-1; 1].
Proof. split; [reflexivity|]. split; [reflexivity|]. split; (split; [discriminate|right; discriminate]). Qed.

(** ** C50 *)
Theorem C50_normal L : normal (polynomial L) /\ forall i, coef (polynomial L) i = coef L i.
Proof. apply polynomial_ok. Qed.
(** == on polynomials and numbers. *)
Theorem C50_eq p q : normal p -> normal q -> (p_eq p (Poly q) = true <-> forall i, coef p i = coef q i).
Proof. intros Np Nq. cbn [p_eq]. rewrite list_eqb_spec. split; [intros ->; reflexivity|intros H; apply normal_ext; assumption]. Qed.
Theorem C50_eq_number p c : normal p -> (p_eq p (Num c) = true <-> forall i, coef p i = if i =? 0 then c else 0).
Proof.
  intros Np. cbn [p_eq]. rewrite list_eqb_spec. assert (Rc : forall i, coef [c] i = if i =? 0 then c else 0) by (intros i; rewrite coef_rd, rd_cons, rd_nil; reflexivity). split.
  - intros <-. exact Rc.
  - intros H. apply normal_ext; [apply normal_one|exact Np|]. intros i. rewrite <- !coef_rd, H. apply Rc.
Qed.
(** p(x) is the value. *)
Theorem C50_call p x : p_call p x = value p x.
Proof. apply p_call_ok. Qed.
(** The results are polynomials in normal form and the value at every x is what it should be. *)
Theorem C50_add p q : exists s, p_add p (Poly q) = Ret s /\ normal s /\ (forall i, coef s i = coef p i + coef q i) /\ forall x, value s x = value p x + value q x.
Proof. destruct (p_add_ok p (Poly q)) as (s & E & N & R). exists s. repeat split; try assumption; try apply N. intros x. apply value_add, R. Qed.
Theorem C50_add_number p c : exists s, p_add p (Num c) = Ret s /\ normal s /\ forall x, value s x = value p x + c.
Proof. destruct (p_add_ok p (Num c)) as (s & E & N & R). exists s. split; [exact E|]. split; [exact N|]. intros x. rewrite (value_add p [c] s x R), value_one_term. reflexivity. Qed.
Theorem C50_neg p : normal (p_neg p) /\ forall x, value (p_neg p) x = - value p x.
Proof. destruct (p_neg_ok p) as (N & R). split; [exact N|]. intros x. rewrite (value_scale (-1) p (p_neg p)); [lia|]. intros i. rewrite R. lia. Qed.
Theorem C50_sub p q : exists s, p_sub p (Poly q) = Ret s /\ normal s /\ (forall i, coef s i = coef p i - coef q i) /\ forall x, value s x = value p x - value q x.
Proof. destruct (p_sub_ok p q) as (s & E & N & R). exists s. repeat split; try assumption; try apply N. intros x. apply value_sub, R. Qed.
(** Number - p. *)
Theorem C50_rsub p c : exists s, p_rsub p c = Ret s /\ normal s /\ forall x, value s x = c - value p x.
Proof.
  unfold p_rsub. destruct (p_add_ok (p_neg p) (Num c)) as (s & E & N & R). exists s. split; [exact E|]. split; [exact N|]. intros x. rewrite (value_add (p_neg p) [c] s x R), value_one_term.
  rewrite (value_scale (-1) p (p_neg p)); [lia|]. intros i. rewrite (proj2 (p_neg_ok p)). lia.
Qed.
(** p - number adds the number: the value at every x is p(x) + c. *)
Theorem C50_sub_number_refuted p c : exists s, p_sub p (Num c) = Ret s /\ forall x, value s x = value p x + c.
Proof. cbn [p_sub]. destruct (p_add_ok p (Poly [c])) as (s & E & N & R). exists s. split; [exact E|]. intros x. rewrite (value_add p [c] s x R), value_one_term. reflexivity. Qed.
Theorem C50_mul p q : exists s, p_mul p (Poly q) = Ret s /\ normal s /\ (forall i, coef s i = conv (coef p) (coef q) i) /\ forall x, value s x = value p x * value q x.
Proof. destruct (p_mul_ok p q) as (s & E & N & R). exists s. repeat split; try assumption; try apply N. intros x. apply value_mul, R. Qed.
Theorem C50_mul_number p c : exists s, p_mul p (Num c) = Ret s /\ normal s /\ forall x, value s x = c * value p x.
Proof. destruct (p_mul_num_ok p c) as (s & E & N & R). exists s. split; [exact E|]. split; [exact N|]. intros x. apply value_scale, R. Qed.
Theorem C50_pow p k s x : p_pow p k = Ret s -> 0 <= k -> value s x = value p x ^ k.
Proof.
  intros E Hk. assert (H : exists i, rd p i <> 0).
  { unfold p_pow, power_jcp in E. destruct (first_nonzero_ok p) as [(_ & E')|(i & _ & _ & N & _)]; [rewrite E' in E; discriminate|exists i; exact N]. }
  destruct (p_pow_ok p k H Hk) as (s' & E' & _ & R). rewrite E in E'. injection E' as <-. rewrite (value_pow p (Z.to_nat k) s x R), Z2Nat.id by exact Hk. reflexivity.
Qed.

Example C50_example : polynomial [1; 2; 0; 0] = [1; 2] /\ p_sub [1; 2] (Num 5) = Ret [6; 2] /\ p_rsub [1; 2] 5 = Ret [4; -2] /\ p_call [1; 2; 3] 10 = 321 /\
  p_add [1; 2] (Poly [3; -2]) = Ret [4] /\ p_eq [4] (Num 4) = true /\ p_pow [0] 2 = Raise IndexError.
Proof. vm_compute. auto 10. Qed.

(** ** C51 *)
Theorem C51_ps_invert A : coef A 0 = 1 \/ coef A 0 = -1 -> exists B, ps_invert A = Ret B /\ length B = length A /\
  forall i, i < Z.of_nat (length A) -> conv (coef A) (coef B) i = unit_series i.
Proof. intros H. destruct (ps_invert_ok A H) as (B & E & L & R). exists B. split; [exact E|]. split; [unfold zlen in L; lia|exact R]. Qed.
(** A constant term other than 1 and -1 has no inverse over the integers: 0 raises, and for the others the floor division hides it:
    a series is returned although the constant term of the product is not 1. *)
Theorem C51_ps_invert_refuted A : A <> [] -> (coef A 0 = 0 -> ps_invert A = Raise ZeroDivisionError) /\
  (2 <= Z.abs (coef A 0) -> exists B, ps_invert A = Ret B /\ length B = length A /\ conv (coef A) (coef B) 0 <> 1).
Proof.
  intros NA. assert (B1 : 1 <= zlen A) by (unfold zlen; destruct A; [congruence|cbn [length]; lia]). change (coef A 0) with (rd A 0). unfold ps_invert. change (len A) with (zlen A). rewrite rd_get by lia. cbn [bind].
  split; [intros ->; reflexivity|]. intros Ha. assert (Dv : forall x, pydiv x (rd A 0) = Ret (x / rd A 0)) by (intros x; unfold pydiv; destruct (Z.eqb_spec (rd A 0) 0); [lia|reflexivity]).
  rewrite Dv. cbn [bind]. destruct (rd_set (zeros (zlen A)) 0 (1 / rd A 0)) as (B & E & LB & RB); [rewrite zlen_zeros; lia|]. rewrite E. cbn [bind]. rewrite zlen_zeros in LB by lia.
  match goal with |- context [foldM ?F _ _] => destruct (foldM_range F (fun x Q => zlen Q = zlen A /\ rd Q 0 = 1 / rd A 0) 1 (zlen A) B B1) as (Q & EQ & LQ & RQ) end.
  - split; [exact LB|]. rewrite RB. reflexivity.
  - intros x Q Hx (LQ & HZ).
    destruct (foldM_range (fun ss i => do a <- pyget A i; do b <- pyget Q (x - i); Ret (ss + a * b)) (fun _ _ => True) 0 (x + 1) 0 ltac:(lia)) as (ss & ES & _); [exact I| |].
    + intros y ss Hy _. rewrite !rd_get by lia. cbn [bind]. eexists. split; [reflexivity|exact I].
    + rewrite ES. cbn [bind]. rewrite Dv. cbn [bind]. destruct (rd_set Q x (- ss / rd A 0)) as (Q' & E' & L' & R'); [lia|]. exists Q'. split; [exact E'|]. split; [lia|]. rewrite R'. destruct (Z.eqb_spec 0 x); [lia|exact HZ].
  - exists Q. split; [exact EQ|]. split; [unfold zlen in LQ; lia|]. change (conv (rd A) (rd Q) 0 <> 1). rewrite conv_Sum, (Sum_one 0), Z.sub_0_r, RQ.
    intros X. assert (D : (rd A 0 | 1)) by (exists (1 / rd A 0); lia). apply Z.divide_1_r_abs in D. lia.
Qed.
Theorem C51_ps_invert_empty : ps_invert [] = Raise IndexError.
Proof. reflexivity. Qed.
Example C51_ps_invert_ex : ps_invert [2; 1] = Ret [0; 0] /\ ps_invert [-3; 1; 4] = Ret [-1; -1; -2].
Proof. split; reflexivity. Qed.
Example C51_example : ps_invert [1; -1; -1; 0; 0; 0] = Ret [1; 1; 2; 3; 5; 8] /\ ps_invert [-1; 1; 0] = Ret [-1; -1; -1].
Proof. vm_compute. auto. Qed.

Print Assumptions C47_mul_karatsuba.
Print Assumptions C47_ps_mult_karatsuba.
Print Assumptions C48_power_jcp.
Print Assumptions C48_ps_power.
Print Assumptions C48_pow.
Print Assumptions C49_pseudo_quo_rem.
Print Assumptions C49_quo_rem.
Print Assumptions C49_quo_rem_exact.
Print Assumptions C50_eq.
Print Assumptions C50_mul.
Print Assumptions C50_pow.
Print Assumptions C51_ps_invert.
Print Assumptions C51_ps_invert_refuted.
