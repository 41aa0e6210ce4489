(** * C103: laws of the arithmetic of polynomials *)
From Coq Require Import ZArith List Bool Lia.
From Verif Require Import Base Py Lists Sums Poly_Spec Poly_Model Poly_Proofs Poly_Proofs2 Poly_Proofs3 Poly_Proofs4 Poly_Props Plaw_Model.
Import ListNotations.
Open Scope Z_scope.

Lemma coef_ext p q : normal p -> normal q -> (forall i, coef p i = coef q i) -> p = q.
Proof. apply normal_ext. Qed.
Lemma coef_num c i : coef [c] i = if i =? 0 then c else 0.
Proof. unfold coef. destruct (Z.ltb_spec i 0), (Z.eqb_spec i 0); try lia; subst; try reflexivity. destruct (Z.to_nat i) as [|[|k]] eqn:E; [lia|reflexivity|reflexivity]. Qed.

Ltac law := eapply coef_ext; [eassumption|eassumption|]; intros i.

(** Sums.  The results of all operations are normal (C50). *)
Theorem C103_add_laws p q r : normal p -> normal q -> normal r ->
  p_add p (Poly q) = p_add q (Poly p) /\
  (do x <- p_add p (Poly q); p_add x (Poly r)) = (do y <- p_add q (Poly r); p_add p (Poly y)) /\
  p_add p (Num 0) = Ret p /\
  p_add p (Poly (p_neg p)) = Ret [0] /\
  p_sub p (Poly q) = p_add p (Poly (p_neg q)) /\
  (do x <- p_sub p (Poly q); p_add x (Poly q)) = Ret p.
Proof.
  intros Np Nq Nr. destruct (C50_add p q) as (a & Ea & Na & Ca & _), (C50_add q p) as (b & Eb & Nb & Cb & _), (C50_add q r) as (c & Ec & Nc & Cc & _), (C50_sub p q) as (d & Ed & Nd & Cd & _).
  rewrite Ea, Eb, Ec, Ed. cbn [bind].
  destruct (C50_add a r) as (e & Ee & Ne & Ce & _), (C50_add p c) as (f & Ef & Nf & Cf & _), (p_add_ok p (Num 0)) as (g & Eg & Ng & Cg), (C50_add p (p_neg p)) as (h & Eh & Nh & Ch & _), (C50_add p (p_neg q)) as (k & Ek & Nk & Ck & _), (C50_add d q) as (l & El & Nl & Cl & _).
  rewrite Ee, Ef, Eg, Eh, Ek, El. pose proof (normal_one 0) as N0.
  pose proof (fun s => proj2 (p_neg_ok s)) as Cn. change (forall s i, coef (p_neg s) i = - coef s i) in Cn. change (forall i, coef g i = coef p i + coef [0] i) in Cg.
  repeat split; f_equal; law.
  - rewrite Ca, Cb. lia.
  - rewrite Ce, Cf, Ca, Cc. lia.
  - rewrite Cg, coef_num. destruct (i =? 0); lia.
  - rewrite Ch, Cn, coef_num. destruct (i =? 0); lia.
  - rewrite Cd, Ck, Cn. lia.
  - rewrite Cl, Cd. lia.
Qed.

(** Products. *)
Theorem C103_mul_laws p q r c : normal p -> normal q -> normal r ->
  p_mul p (Poly q) = p_mul q (Poly p) /\
  (do x <- p_mul p (Poly q); p_mul x (Poly r)) = (do y <- p_mul q (Poly r); p_mul p (Poly y)) /\
  (do x <- p_add q (Poly r); p_mul p (Poly x)) = (do y <- p_mul p (Poly q); do z <- p_mul p (Poly r); p_add y (Poly z)) /\
  p_mul p (Num c) = p_mul p (Poly [c]) /\
  p_mul p (Num 1) = Ret p /\ p_mul p (Num 0) = Ret [0] /\ p_mul p (Num (-1)) = Ret (p_neg p).
Proof.
  intros Np Nq Nr. destruct (C50_mul p q) as (a & Ea & Na & Ca & _), (C50_mul q p) as (b & Eb & Nb & Cb & _), (C50_mul q r) as (d & Ed & Nd & Cd & _), (C50_add q r) as (e & Ee & Ne & Ce & _), (C50_mul p r) as (f & Ef & Nf & Cf & _).
  rewrite Ea, Eb, Ed, Ee, Ef. cbn [bind].
  destruct (C50_mul a r) as (g & Eg & Ng & Cg & _), (C50_mul p d) as (h & Eh & Nh & Ch & _), (C50_mul p e) as (j & Ej & Nj & Cj & _), (C50_add a f) as (k & Ek & Nk & Ck & _).
  destruct (p_mul_num_ok p c) as (l & El & Nl & Cl), (C50_mul p [c]) as (m & Em & Nm & Cm & _), (p_mul_num_ok p 1) as (n & En & Nn & Cn), (p_mul_num_ok p 0) as (o & Eo & No & Co), (p_mul_num_ok p (-1)) as (s & Es & Ns & Cs).
  rewrite Eg, Eh, Ej, Ek, El, Em, En, Eo, Es. pose proof (normal_one 0) as N0. destruct (p_neg_ok p) as (Nn' & Cn'). change (forall i, coef (p_neg p) i = - coef p i) in Cn'.
  change (forall i, coef l i = c * coef p i) in Cl. change (forall i, coef n i = 1 * coef p i) in Cn. change (forall i, coef o i = 0 * coef p i) in Co. change (forall i, coef s i = -1 * coef p i) in Cs.
  repeat split; f_equal; law.
  - rewrite Ca, Cb. apply conv_comm.
  - rewrite Cg, Ch. rewrite (conv_ext _ (conv (coef p) (coef q)) _ (coef r)) by (intros; try apply Ca; reflexivity). rewrite conv_assoc. apply conv_ext; intros; [reflexivity|symmetry; apply Cd].
  - rewrite Cj, Ck, Ca, Cf. rewrite <- conv_add_r. apply conv_ext; intros; [reflexivity|apply Ce].
  - rewrite Cl, Cm. rewrite conv_comm. rewrite (conv_ext _ (fun j => c * unit_series j) _ (coef p)) by (intros; try reflexivity; rewrite coef_num; unfold unit_series; destruct (_ =? 0); lia). rewrite conv_mul_l, conv_one_l; [reflexivity|]. intros. apply rd_neg. assumption.
  - rewrite Cn. lia.
  - rewrite Co, coef_num. destruct (i =? 0); lia.
  - rewrite Cs, Cn'. lia.
Qed.

Lemma nonzero_last p : normal p -> p <> [0] -> last p 0 <> 0.
Proof.
  intros (N & [L|L]) D; [|exact L]. destruct p as [|a [|b p]]; [congruence| |discriminate]. cbn. intros ->. congruence.
Qed.
Lemma nonzero_coef p : normal p -> p <> [0] -> exists i, coef p i <> 0.
Proof. intros N D. pose proof (nonzero_last p N D) as H. destruct N as (N & _). rewrite last_rd in H by exact N. exists (zlen p - 1). exact H. Qed.

(** The degree of a product is the sum of the degrees, its leading coefficient the product of the leading coefficients, and
    there are no divisors of zero. *)
Theorem C103_degree p q : normal p -> normal q -> p <> [0] -> q <> [0] -> exists s, p_mul p (Poly q) = Ret s /\ normal s /\ s <> [0] /\
  (length s = length p + length q - 1)%nat /\ last s 0 = last p 0 * last q 0.
Proof.
  intros Np Nq Dp Dq. destruct (p_mul_ok p q) as (s & E & Ns & Cs). exists s. split; [exact E|]. split; [exact Ns|].
  pose proof (nonzero_last p Np Dp) as Hp. pose proof (nonzero_last q Nq Dq) as Hq. pose proof Np as (Np' & _). pose proof Nq as (Nq' & _). rewrite last_rd in Hp, Hq by assumption.
  assert (1 <= zlen p) by (unfold zlen; destruct p; [congruence|cbn [length]; lia]). assert (1 <= zlen q) by (unfold zlen; destruct q; [congruence|cbn [length]; lia]).
  assert (T : rd s (zlen p - 1 + (zlen q - 1)) = rd p (zlen p - 1) * rd q (zlen q - 1)) by (rewrite Cs; apply conv_top_coef; try lia; intros; try (apply rd_top; lia); apply rd_neg; lia).
  assert (U : forall i, zlen p - 1 + (zlen q - 1) < i -> rd s i = 0) by (intros i Hi; rewrite Cs; apply (conv_top _ _ (zlen p - 1) (zlen q - 1)); try lia; intros; apply rd_top; lia).
  assert (T' : rd s (zlen p - 1 + (zlen q - 1)) <> 0) by (rewrite T; nia).
  assert (L : zlen s = zlen p + zlen q - 1).
  { pose proof Ns as (Ns' & Ls). assert (1 <= zlen s) by (unfold zlen; destruct s; [congruence|cbn [length]; lia]).
    assert (zlen p - 1 + (zlen q - 1) < zlen s) by (destruct (Z.lt_ge_cases (zlen p - 1 + (zlen q - 1)) (zlen s)); [assumption|exfalso; apply T'; apply rd_top; assumption]).
    destruct (Z.eq_dec (zlen s) (zlen p + zlen q - 1)) as [|D]; [assumption|]. exfalso. destruct Ls as [Ls|Ls]; [unfold zlen in *; lia|]. apply Ls. rewrite last_rd by exact Ns'. apply U. lia. }
  split; [|split].
  - intros ->. apply T'. change (zlen [0]) with 1 in L. replace (zlen p - 1 + (zlen q - 1)) with 0 by lia. reflexivity.
  - unfold zlen in L. lia.
  - pose proof Ns as (Ns' & _). rewrite !last_rd by assumption. rewrite <- T. f_equal. lia.
Qed.
Theorem C103_no_zero_divisors p q : normal p -> normal q -> p_mul p (Poly q) = Ret [0] -> p = [0] \/ q = [0].
Proof.
  intros Np Nq E. destruct (list_eq_dec Z.eq_dec p [0]) as [|Dp]; [auto|]. destruct (list_eq_dec Z.eq_dec q [0]) as [|Dq]; [auto|].
  destruct (C103_degree p q Np Nq Dp Dq) as (s & E' & _ & Ds & _). congruence.
Qed.
(** Division by a number c: ValueError if c does not divide the leading coefficient; otherwise the coefficients are divided
    with remainder. *)
Theorem C103_quo_rem_number p c : normal p ->
  (c = 0 \/ ~ (c | last p 0) -> quo_rem_number p c = Raise ValueError) /\
  (c <> 0 -> (c | last p 0) -> exists q r, quo_rem_number p c = Ret (q, r) /\ normal q /\ normal r /\ forall i, coef q i = coef p i / c /\ coef r i = coef p i mod c).
Proof.
  intros Np. pose proof Np as (N & _). assert (L : 1 <= zlen p) by (unfold zlen; destruct p; [congruence|cbn [length]; lia]). unfold quo_rem_number.
  destruct (Z.eq_dec c 0) as [->|Hc].
  { split; [|congruence]. intros _. rewrite (C49_quo_rem_zero p Np). reflexivity. }
  rewrite last_rd by exact N. split.
  - intros [|D]; [congruence|]. destruct (quo_rem_ok p [c] ltac:(discriminate) Hc) as (_ & H & _). rewrite H; [reflexivity|exact L|]. change (rd [c] (zlen [c] - 1)) with c. intros E. apply D. apply Z.mod_divide; assumption.
  - intros _ D. apply Z.mod_divide in D; [|exact Hc]. rewrite quo_rem_unfold by (try discriminate; exact L). change (rd [c] (zlen [c] - 1)) with c. destruct (Z.eqb_spec c 0); [congruence|]. rewrite D. cbn [Z.eqb negb].
    destruct (qr_loop p [c] ltac:(change (zlen [c]) with 1; lia) Hc (fun k q r => forall t, rd r t = if k <=? t then rd p t mod c else rd p t)) as (q & r & E & Lq & R & J).
    + intros t. destruct (Z.leb_spec (zlen p - zlen [c] + 1) t) as [Ht|Ht]; [|reflexivity]. change (zlen [c]) with 1 in Ht. rewrite rd_top by lia. symmetry. apply Z.mod_0_l. exact Hc.
    + intros k q r q' r' Hk Lr Lq J Rq Rr t. rewrite Rr. change (zlen [c]) with 1 in *. replace (k + 1 - 1) with k by lia. rewrite (J t), (J k). change (rd [c] (1 - 1)) with c. change (rd [c] (t - k)) with (coef [c] (t - k)). rewrite coef_num.
      destruct (Z.leb_spec (k + 1) k); [lia|]. destruct (Z.leb_spec (k + 1) t), (Z.leb_spec k t), (Z.eqb_spec (t - k) 0); try lia. replace t with k by lia. rewrite Z.mul_comm at 1. pose proof (Z.div_mod (rd p k) c Hc). nia.
    + rewrite E. cbn [bind coerced]. destruct (polynomial_ok q) as (Nq & Rq). destruct (polynomial_ok r) as (Nr & Rr). exists (polynomial q), (polynomial r). split; [reflexivity|]. split; [exact Nq|]. split; [exact Nr|]. intros i.
      assert (Ri : coef (polynomial r) i = coef p i mod c).
      { change (rd (polynomial r) i = rd p i mod c). rewrite Rr, J. destruct (Z.leb_spec 0 i); [reflexivity|]. rewrite rd_neg by assumption. symmetry. apply Z.mod_0_l. exact Hc. }
      split; [|exact Ri]. change (rd (polynomial q) i = rd p i / c). change (rd (polynomial r) i = rd p i mod c) in Ri. rewrite Rr in Ri. rewrite Rq. pose proof (R i) as Q. rewrite conv_comm in Q. rewrite (conv_ext _ (fun j => c * unit_series j) _ (rd q)) in Q by (intros; try reflexivity; change (coef [c] j = c * unit_series j); rewrite coef_num; unfold unit_series; destruct (_ =? 0); lia). rewrite conv_mul_l, conv_one_l in Q by (intros; apply rd_neg; assumption).
      pose proof (Z.div_mod (rd p i) c Hc). nia.
Qed.

(** Pseudo-division by a number c: no exception, the remainder is 0, and the quotient is c^m * p, m the degree of p. *)
Theorem C103_pseudo_quo_rem_number p c : normal p -> exists q, pseudo_quo_rem_number p c = Ret (q, [0]) /\ normal q /\ (c <> 0 -> forall i, coef q i = c ^ (Z.of_nat (length p) - 1) * coef p i).
Proof.
  intros Np. pose proof Np as (N & _). assert (L : 1 <= Z.of_nat (length p)) by (destruct p; [congruence|cbn [length]; lia]). destruct (C49_pseudo_quo_rem p [c] Np (normal_one c)) as (_ & H). cbn [length last] in H.
  destruct (H ltac:(lia)) as (q & r & E & Nq & Nr & T & R). assert (r = [0]) as ->.
  { apply (coef_ext r [0] Nr (normal_one 0)). intros i. rewrite coef_num. destruct (Z.lt_ge_cases i 0) as [Hi|Hi]; [change (coef r i) with (rd r i); rewrite rd_neg by assumption|rewrite (R i) by lia]; destruct (i =? 0); reflexivity. }
  exists q. unfold pseudo_quo_rem_number. rewrite E. split; [reflexivity|]. split; [exact Nq|]. intros Hc i. pose proof (T i) as Ti. rewrite conv_comm in Ti.
  rewrite (conv_ext _ (fun j => c * unit_series j) _ (coef q)) in Ti by (intros; try reflexivity; rewrite coef_num; unfold unit_series; destruct (_ =? 0); lia). rewrite conv_mul_l, conv_one_l in Ti by (intros; apply rd_neg; assumption).
  replace (coef [0] i) with 0 in Ti by (rewrite coef_num; destruct (i =? 0); reflexivity).
  replace (Z.of_nat (length p) - 1 - (Z.of_nat 1 - 1) + 1) with (Z.succ (Z.of_nat (length p) - 1)) in Ti by lia. rewrite Z.pow_succ_r in Ti by lia. nia.
Qed.
(** Division undoes multiplication, so a factor can be cancelled. *)
Theorem C103_division p q : normal p -> normal q -> q <> [0] -> (do s <- p_mul p (Poly q); quo_rem s q) = Ret (p, [0]).
Proof.
  intros Np Nq Dq. destruct (list_eq_dec Z.eq_dec p [0]) as [->|Dp].
  - destruct (p_mul_ok [0] q) as (s & E & Ns & Cs). rewrite E. cbn [bind]. assert (s = [0]) as ->.
    { apply normal_ext; [exact Ns|exact Np|]. intros i. rewrite Cs, conv_zero_l; [symmetry|]; [|intros j]; change (coef [0] i = 0) || change (coef [0] j = 0); rewrite coef_num; destruct (_ =? 0); reflexivity. }
    pose proof (nonzero_last q Nq Dq) as Hl. destruct (C49_quo_rem [0] q Np Nq Hl) as (H1 & _ & H3). destruct (Nat.lt_ge_cases (length [0]) (length q)) as [L|L]; [exact (H1 L)|].
    cbn [length] in L. destruct q as [|c [|d q]]; [destruct Nq; congruence| |cbn [length] in L; lia]. cbn in Hl. destruct (C103_quo_rem_number [0] c Np) as (_ & H). destruct (H Hl (Z.divide_0_r c)) as (Q & R & EQ & NQ & NR & HQ). unfold quo_rem_number in EQ.
    assert (Z0 : forall i, coef [0] i = 0) by (intros i; rewrite coef_num; destruct (i =? 0); reflexivity).
    assert (Q = [0]) as -> by (apply (coef_ext Q [0] NQ Np); intros i; rewrite (proj1 (HQ i)), !Z0; apply Z.div_0_l; exact Hl). assert (R = [0]) as -> by (apply (coef_ext R [0] NR Np); intros i; rewrite (proj2 (HQ i)), !Z0; apply Z.mod_0_l; exact Hl).
    destruct (quo_rem [0] [c]) as [x|e|]; cbn in EQ; congruence.
  - destruct (C103_degree p q Np Nq Dp Dq) as (s & E & Ns & Ds & _). destruct (C50_mul p q) as (s' & E' & _ & C & _). assert (s' = s) as -> by congruence. rewrite E. cbn [bind].
    apply (C49_quo_rem_exact s q p Ns Nq Np (nonzero_last q Nq Dq) (nonzero_coef s Ns Ds) C).
Qed.
Theorem C103_cancel p p' q : normal p -> normal p' -> normal q -> q <> [0] -> p_mul p (Poly q) = p_mul p' (Poly q) -> p = p'.
Proof. intros Np Np' Nq Dq E. pose proof (C103_division p q Np Nq Dq) as H. pose proof (C103_division p' q Np' Nq Dq) as H'. rewrite E in H. congruence. Qed.

(** Powers of a polynomial other than 0. *)
Theorem C103_pow_laws p q a b : normal p -> normal q -> p <> [0] -> q <> [0] -> 0 <= a -> 0 <= b ->
  p_pow p 0 = Ret [1] /\ p_pow p 1 = Ret p /\
  p_pow p (a + b) = (do x <- p_pow p a; do y <- p_pow p b; p_mul x (Poly y)) /\
  p_pow p (a * b) = (do x <- p_pow p a; p_pow x b) /\
  (do s <- p_mul p (Poly q); p_pow s a) = (do x <- p_pow p a; do y <- p_pow q a; p_mul x (Poly y)).
Proof.
  intros Np Nq Dp Dq Ha Hb. pose proof (nonzero_coef p Np Dp) as Hp. pose proof (nonzero_coef q Nq Dq) as Hq.
  destruct (p_pow_ok p 0 Hp ltac:(lia)) as (z & Ez & Nz & Cz), (p_pow_ok p 1 Hp ltac:(lia)) as (o & Eo & No & Co), (p_pow_ok p (a + b) Hp ltac:(lia)) as (s & Es & Ns & Cs), (p_pow_ok p a Hp Ha) as (x & Ex & Nx & Cx), (p_pow_ok p b Hp Hb) as (y & Ey & Ny & Cy),
    (p_pow_ok p (a * b) Hp ltac:(nia)) as (m & Em & Nm & Cm), (p_pow_ok q a Hq Ha) as (w & Ew & Nw & Cw).
  destruct (C103_degree p q Np Nq Dp Dq) as (pq & Epq & Npq & Dpq & _). destruct (p_mul_ok p q) as (pq' & Epq' & _ & Cpq). assert (pq' = pq) as -> by congruence. clear Epq'.
  rewrite Ez, Eo, Es, Ex, Ey, Em, Ew, Epq. cbn [bind].
  destruct (p_mul_ok x y) as (xy & Exy & Nxy & Cxy), (p_mul_ok x w) as (xw & Exw & Nxw & Cxw), (p_pow_ok pq a (nonzero_coef pq Npq Dpq) Ha) as (v & Ev & Nv & Cv). rewrite Exy, Exw, Ev.
  assert (Hx : exists i, rd x i <> 0).
  { apply (nonzero_coef x Nx). intros ->. assert (H0 : cpow (rd p) (Z.to_nat a) (Z.of_nat (Z.to_nat a) * (zlen p - 1)) = last p 0 ^ Z.of_nat (Z.to_nat a)).
    { pose proof Np as (Np' & _). assert (1 <= zlen p) by (unfold zlen; destruct p; [congruence|cbn [length]; lia]). rewrite last_rd by exact Np'. clear - H Np'. induction (Z.to_nat a) as [|k IH]; [reflexivity|]. cbn [cpow].
      replace (Z.of_nat (S k) * (zlen p - 1)) with (zlen p - 1 + Z.of_nat k * (zlen p - 1)) by lia. rewrite conv_top_coef; [rewrite IH, Nat2Z.inj_succ, Z.pow_succ_r by lia; reflexivity|lia|nia| | |].
      - intros j Hj. apply rd_top. lia.
      - intros j Hj. apply (cpow_top _ k (zlen p - 1)); [intros; apply rd_top; lia|lia].
      - intros j Hj. apply rd_neg. lia. }
    rewrite <- Cx in H0. change (rd [0] (Z.of_nat (Z.to_nat a) * (zlen p - 1))) with (coef [0] (Z.of_nat (Z.to_nat a) * (zlen p - 1))) in H0. rewrite coef_num in H0. pose proof (Z.pow_nonzero (last p 0) (Z.of_nat (Z.to_nat a)) (nonzero_last p Np Dp) ltac:(lia)). destruct (_ =? 0) in H0; congruence. }
  destruct (p_pow_ok x b Hx Hb) as (xb & Exb & Nxb & Cxb). rewrite Exb. pose proof (normal_one 1) as N1.
  assert (M1 : forall f k l i, cpow (cpow f k) l i = cpow f (k * l) i).
  { intros f k l. induction l as [|l IH]; intros i; [rewrite Nat.mul_0_r; reflexivity|]. cbn [cpow]. replace (k * S l)%nat with (k + k * l)%nat by lia. rewrite cpow_plus. apply conv_ext; intros; [reflexivity|apply IH]. }
  assert (M2 : forall f g k i, cpow (conv f g) k i = conv (cpow f k) (cpow g k) i).
  { intros f g k. induction k as [|k IH]; intros i; cbn [cpow].
    - symmetry. apply conv_one_l. intros Hi. unfold unit_series. destruct (Z.eqb_spec i 0); [lia|reflexivity].
    - rewrite (conv_ext _ (conv f g) _ (conv (cpow f k) (cpow g k))) by (intros; try apply IH; reflexivity). rewrite !conv_assoc. apply conv_ext; intros; [reflexivity|]. rewrite conv_swap. reflexivity. }
  repeat split; f_equal; (eapply normal_ext; [eassumption|eassumption|]; intros i).
  - rewrite Cz. change (rd [1] i) with (coef [1] i). rewrite coef_num. reflexivity.
  - rewrite Co. change (Z.to_nat 1) with 1%nat. cbn [cpow]. rewrite conv_comm. apply conv_one_l. intros. apply rd_neg. assumption.
  - rewrite Cs, Cxy, Z2Nat.inj_add, cpow_plus by assumption. apply conv_ext; intros; symmetry; [apply Cx|apply Cy].
  - rewrite Cm, Cxb, Z2Nat.inj_mul, <- M1 by assumption. symmetry. apply cpow_ext. exact Cx.
  - rewrite Cv, Cxw. rewrite (cpow_ext _ (conv (rd p) (rd q))) by exact Cpq. rewrite M2. apply conv_ext; intros; symmetry; [apply Cx|apply Cw].
Qed.

(** sum() of numbers and polynomials: its value at every x is the sum of the values. *)
Definition value_of (o : operand) (x : Z) : Z := match o with Num c => c | Poly p => value p x end.
Theorem C103_sum l : exists s, op_total l = Ret s /\ forall x, value_of s x = zsum (map (fun o => value_of o x) l).
Proof.
  unfold op_total. assert (G : forall l a, exists s, foldM op_plus l a = Ret s /\ forall x, value_of s x = value_of a x + zsum (map (fun o => value_of o x) l)).
  { clear l. intros l. induction l as [|o l IH]; intros a; [exists a; split; [reflexivity|intros; cbn; lia]|]. cbn [foldM map].
    assert (exists b, op_plus a o = Ret b /\ forall x, value_of b x = value_of a x + value_of o x) as (b & Eb & Vb).
    { destruct a as [p|c], o as [q|d]; cbn [op_plus].
      - destruct (C50_add p q) as (s & E & _ & _ & V). rewrite E. exists (Poly s). split; [reflexivity|exact V].
      - destruct (C50_add_number p d) as (s & E & _ & V). rewrite E. exists (Poly s). split; [reflexivity|exact V].
      - destruct (C50_add_number q c) as (s & E & _ & V). rewrite E. exists (Poly s). split; [reflexivity|]. intros x. cbn. rewrite V. lia.
      - eexists. split; [reflexivity|]. reflexivity. }
    rewrite Eb. cbn [bind]. destruct (IH b) as (s & E & V). exists s. split; [exact E|]. intros x. rewrite V, Vb, zsum_cons. lia. }
  destruct (G l (Num 0)) as (s & E & V). exists s. split; [exact E|]. intros x. rewrite V. reflexivity.
Qed.

Print Assumptions C103_add_laws.
Print Assumptions C103_mul_laws.
Print Assumptions C103_degree.
Print Assumptions C103_no_zero_divisors.
Print Assumptions C103_pseudo_quo_rem_number.
Print Assumptions C103_division.
Print Assumptions C103_cancel.
Print Assumptions C103_pow_laws.
Print Assumptions C103_sum.
Print Assumptions C103_quo_rem_number.

Example normal_example : normal [1; 0; -3] /\ normal [2; 5] /\ [2; 5] <> [0].
Proof. split; [split; [discriminate|right; discriminate]|]. split; [split; [discriminate|right; discriminate]|discriminate]. Qed.
Example division_example : p_mul [1; 0; -3] (Poly [2; 5]) = Ret [2; 5; -6; -15] /\ quo_rem [2; 5; -6; -15] [2; 5] = Ret ([1; 0; -3], [0]).
Proof. split; reflexivity. Qed.
Example pow_example : p_pow [1; 1] 5 = Ret [1; 5; 10; 10; 5; 1].
Proof. reflexivity. Qed.
Example sum_example : op_total [Num 3; Poly [1; 2]; Poly [0; 0; 4]] = Ret (Poly [4; 2; 4]).
Proof. reflexivity. Qed.
Example quo_rem_number_example : quo_rem_number [7; 5; 6] 3 = Ret ([2; 1; 2], [1; 2]) /\ quo_rem_number [7; 5; 6] 4 = Raise ValueError.
Proof. split; reflexivity. Qed.
