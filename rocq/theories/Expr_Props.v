(** * C105: arithmetic expressions in polynomials and integers *)
From Coq Require Import String ZArith List Bool Lia.
From Verif Require Import Base Sums Poly_Spec Poly_Model Poly_Proofs Poly_Proofs2 Poly_Proofs3 Poly_Proofs4 Poly_Proofs5 Poly_Props Expr_Spec Expr_Model Expr_Proofs.
Import ListNotations.
Open Scope Z_scope.

(** An expression without polynomials gives an integer; every other one a polynomial in normal form, of the class and
    with the variable name of the first polynomial in it, that has the right value everywhere. *)
Theorem C105_expressions e : allowed e ->
  match first_polynomial e with
  | None => exists z, evaluate e = Ret (VInt z) /\ forall x, meaning e x = z
  | Some (cls, name) => exists p, evaluate e = Ret (VPoly cls p name) /\ normal p /\ forall x, op_call p x = meaning e x
  end.
Proof.
  intros A. destruct (evaluate_ok e A) as (v & E & G). destruct v as [z|cls p n]; cbn [good] in G; destruct G as (-> & G).
  - exists z. auto.
  - exists p. split; [exact E|]. split; [apply G|]. intros x. unfold op_call. rewrite p_call_ok. apply G.
Qed.
(** Its coefficients are determined by the meaning: two expressions with the same values everywhere have the same
    coefficients, whatever the algorithms did on the way. *)
Theorem C105_coefficients e e' cls cls' p p' n n' : allowed e -> allowed e' -> evaluate e = Ret (VPoly cls p n) -> evaluate e' = Ret (VPoly cls' p' n') ->
  ((forall x, meaning e x = meaning e' x) <-> op_coefficients p = op_coefficients p').
Proof.
  intros A A' E E'. destruct (evaluate_ok e A) as (v & Ev & G). destruct (evaluate_ok e' A') as (v' & Ev' & G'). rewrite E in Ev. rewrite E' in Ev'. injection Ev as <-. injection Ev' as <-. cbn [good] in G, G'.
  destruct G as (_ & N & G), G' as (_ & N' & G'). unfold op_coefficients. split.
  - intros H. apply value_eq; [exact N|exact N'|]. intros x. rewrite G, G'. apply H.
  - intros <- x. rewrite <- G, <- G'. reflexivity.
Qed.
(** == decides equality as functions, between numbers and polynomials of any class and variable; != is its negation. *)
Theorem C105_equality e e' v v' : allowed e -> allowed e' -> evaluate e = Ret v -> evaluate e' = Ret v' ->
  (op_eq v v' = true <-> forall x, meaning e x = meaning e' x) /\ (op_ne v v' = false <-> forall x, meaning e x = meaning e' x).
Proof.
  intros A A' E E'. destruct (evaluate_ok e A) as (u & Eu & G). destruct (evaluate_ok e' A') as (u' & Eu' & G'). rewrite E in Eu. rewrite E' in Eu'. injection Eu as <-. injection Eu' as <-.
  pose proof (eq_ok _ _ _ _ _ _ G G') as H. split; [exact H|]. rewrite ne_ok, negb_false_iff. exact H.
Qed.

(** Both exceptions in [allowed] are needed: subtracting a number adds it ... *)
Theorem C105_sub_number_refuted e b : allowed e -> allowed b -> first_polynomial e <> None -> first_polynomial b = None ->
  exists cls p n, evaluate (ESub e b) = Ret (VPoly cls p n) /\ (forall x, op_call p x = meaning e x + meaning b x) /\
    ((forall x, op_call p x = meaning (ESub e b) x) <-> forall x, meaning b x = 0).
Proof.
  intros A B H Hb. destruct (evaluate_ok e A) as (u & Eu & G). destruct (evaluate_ok b B) as (v & Ev & G'). cbn [evaluate]. rewrite Eu, Ev. cbn [bind]. rewrite Hb in G'.
  destruct v as [c|? ? ?]; cbn [good] in G'; [|destruct G' as (X & _); discriminate X]. destruct (good_sub_number u c _ _ G H) as (w & -> & W). destruct w as [z|cls p n]; cbn [good] in W; [destruct W as (W & _); contradiction|].
  destruct W as (_ & _ & W). assert (P : forall x, op_call p x = meaning e x + meaning b x) by (intros x; unfold op_call; rewrite p_call_ok, W, (proj2 G'); reflexivity).
  exists cls, p, n. split; [reflexivity|]. split; [exact P|]. cbn [meaning]. split; intros X x; specialize (X x); rewrite P in *; lia.
Qed.
(** ... and a zero polynomial has no powers, not even with the exponent 1. *)
Theorem C105_zero_power_refuted e k : allowed e -> first_polynomial e <> None -> (forall x, meaning e x = 0) -> evaluate (EPow e k) = Raise IndexError.
Proof. intros A H Z0. destruct (evaluate_ok e A) as (u & Eu & G). cbn [evaluate]. rewrite Eu. exact (zero_pow u _ _ k G H Z0). Qed.

(** Division of a polynomial by a number: the floor quotients and the residues of the coefficients, if the number
    divides the leading coefficient. *)
Theorem C105_quo_rem_number p c : normal p ->
  ((c = 0 \/ last p 0 mod c <> 0) -> quo_rem_number p c = Raise ValueError) /\
  (c <> 0 -> last p 0 mod c = 0 -> exists q r, quo_rem_number p c = Ret (q, r) /\ normal q /\ normal r /\ forall i, coef q i = coef p i / c /\ coef r i = coef p i mod c).
Proof.
  intros N. assert (Nc : normal [c]) by apply normal_one. unfold quo_rem_number. destruct (Z.eq_dec c 0) as [->|Hc].
  - split; [|lia]. intros _. rewrite C49_quo_rem_zero by exact N. reflexivity.
  - assert (L : (length [c] <= length p)%nat) by (destruct N as (N & _); destruct p; [congruence|cbn [length]; lia]). split.
    + intros [H|H]; [lia|]. destruct (C49_quo_rem p [c] N Nc Hc) as (_ & E & _). rewrite E; [reflexivity|exact L|exact H].
    + intros _ H. destruct (C49_quo_rem_floor p [c] N Nc Hc L H) as ((q & r & E) & F). apply F in E as X. destruct X as (Nq & Nr & X & Y). rewrite E. exists q, r. split; [reflexivity|]. split; [exact Nq|]. split; [exact Nr|].
      assert (forall i, coef p i = c * coef q i + coef r i) as X'.
      { intros i. rewrite X, conv_number by apply rd_neg. reflexivity. }
      intros i. destruct (Z.ltb_spec i 0) as [Hi|Hi].
      * unfold coef. apply Z.ltb_lt in Hi. rewrite Hi. rewrite Zdiv_0_l, Zmod_0_l. auto.
      * specialize (Y i). cbn [length last] in Y. specialize (Y ltac:(lia)). specialize (X' i). split; [apply Z.div_unique with (coef r i); [exact Y|exact X']|apply Z.mod_unique with (coef q i); [exact Y|exact X']].
Qed.
Lemma pseudo_number_ok p c : p <> [] -> exists q r, pseudo_quo_rem p [c] = Ret (q, r) /\ forall t, rd q t = c ^ (zlen p - 1) * rd p t.
Proof.
  intros Np. unfold pseudo_quo_rem. change (len p) with (zlen p). change (len [c] - 1) with 0. set (m := zlen p - 1). assert (Hm : 0 <= m) by (unfold m, zlen; destruct p; [congruence|cbn [length]; lia]).
  assert (Lp : zlen p = m + 1) by (unfold m; lia). clearbody m. destruct (Z.ltb_spec m 0); [lia|]. rewrite Z.sub_0_r. assert (R0 : rd [c] 0 = c) by reflexivity.
  match goal with |- context [foldM ?F _ _] => destruct (foldM_range_down F (fun k '(q, w) => zlen q = m + 1 /\ zlen w = m + 1 /\ (forall t, t < k -> rd w t = c ^ (m + 1 - k) * rd p t) /\
      forall t, rd q t = if k <=? t then c ^ m * rd p t else 0) 0 (m + 1) (zeros (m + 1), p) ltac:(lia)) as ((q & w) & E & Lq & Lw & Rw & Rq) end.
  - split; [apply zlen_zeros; lia|]. split; [exact Lp|]. split; [intros t Ht; rewrite Z.sub_diag, Z.pow_0_r; lia|]. intros t. rewrite rd_zeros. destruct (Z.leb_spec (m + 1) t); [rewrite (rd_top p t) by lia; lia|reflexivity].
  - intros k (q & w) Hk (Lq & Lw & Rw & Rq). rewrite (rd_get w (0 + k)) by lia. cbn [bind]. rewrite (rd_get [c] 0) by (cbn; lia). rewrite R0. cbn [bind].
    destruct (rd_set q k (rd w (0 + k) * c ^ k)) as (q' & -> & Lq' & Rq'); [lia|]. cbn [bind]. destruct (pqr_inner_ok [c] 0 k w ltac:(lia) eq_refl ltac:(lia) ltac:(lia)) as (w' & -> & Lw' & Rw'). cbn [bind].
    eexists. split; [reflexivity|]. split; [lia|]. split; [lia|]. split.
    + intros t Ht. rewrite Rw', R0. destruct (Z.leb_spec 0 t) as [T|T]; cbn [andb].
      * destruct (Z.ltb_spec t (0 + k)); [|lia]. rewrite (rd_neg [c] (t - k)) by lia. rewrite Rw by lia. replace (m + 1 - k) with (Z.succ (m + 1 - (k + 1))) by lia. rewrite Z.pow_succ_r by lia. ring.
      * rewrite (rd_neg w t), (rd_neg p t) by lia. ring.
    + intros t. rewrite Rq'. destruct (Z.eqb_spec t k) as [->|N].
      * rewrite Z.leb_refl, Z.add_0_l, Rw by lia. replace m with (m + 1 - (k + 1) + k) at 2 by lia. rewrite Z.pow_add_r by lia. ring.
      * rewrite Rq. destruct (Z.leb_spec (k + 1) t), (Z.leb_spec k t); try lia; reflexivity.
  - rewrite E. cbn [bind]. eexists _, _. split; [reflexivity|]. intros t. destruct (polynomial_ok q) as (_ & Rp). rewrite Rp, Rq. destruct (Z.leb_spec 0 t); [reflexivity|]. rewrite (rd_neg p t) by lia. lia.
Qed.
(** Pseudo division by a number c: c^m times the polynomial, m its degree. *)
Theorem C105_pseudo_quo_rem_number p c : normal p -> exists q, pseudo_quo_rem_number p c = Ret (q, [0]) /\ normal q /\
  forall i, coef q i = c ^ (Z.of_nat (length p) - 1) * coef p i.
Proof.
  intros N. assert (Nc : normal [c]) by apply normal_one. unfold pseudo_quo_rem_number. destruct (C49_pseudo_quo_rem p [c] N Nc) as (_ & X). cbn [length last] in X. change (Z.of_nat 1 - 1) with 0 in X.
  assert (1 <= Z.of_nat (length p)) by (destruct N as (N & _); destruct p; [congruence|cbn [length]; lia]). destruct X as (q & r & E & Nq & Nr & X & Y); [lia|].
  destruct (pseudo_number_ok p c) as (q' & r' & E' & Q); [apply N|]. rewrite E in E'. inversion E'; subst q' r'. rewrite E.
  assert (r = [0]) as ->.
  { apply normal_ext; [exact Nr|apply normal_one|]. intros i. change (coef r i = coef [0] i). transitivity 0; [destruct (Z.ltb_spec i 0); [unfold coef; destruct (Z.ltb_spec i 0); [reflexivity|lia]|apply Y; lia]|].
    change (0 = rd [0] i). rewrite rd_cons, rd_nil. destruct (i =? 0); reflexivity. }
  exists q. split; [reflexivity|]. split; [exact Nq|]. exact Q.
Qed.

Print Assumptions C105_expressions.
Print Assumptions C105_coefficients.
Print Assumptions C105_equality.
Print Assumptions C105_sub_number_refuted.
Print Assumptions C105_zero_power_refuted.
Print Assumptions C105_quo_rem_number.
Print Assumptions C105_pseudo_quo_rem_number.

(** 3 - (x + 1)**3 * 2 + y, with x of PolyZZ and y of Polynomial. *)
Definition sample : pexpr := EAdd (ESub (ENum 3) (EMul (EPow (EAdd (EPoly KZZ [0; 1] "x") (ENum 1)) 3) (ENum 2))) (EPoly KPoly [0; 1; 0] "y").
Example C105_example_allowed : allowed sample /\ first_polynomial sample = Some (KZZ, "x"%string).
Proof. split; [|reflexivity]. cbn. repeat split; try lia; try discriminate. exists 5. vm_compute. discriminate. Qed.
Example C105_example : evaluate sample = Ret (VPoly KZZ [1; -5; -6; -2] "x"). Proof. vm_compute. reflexivity. Qed.
Example C105_example_eq : op_eq (VInt 7) (VPoly KQQ [7] "t") = true /\ op_ne (VPoly KZZ [1; 2] "x") (VPoly KPoly [1; 2] "y") = false /\ op_ne (VInt 1) (VPoly KZZ [1; 2] "x") = true.
Proof. vm_compute. auto. Qed.
Example C105_example_sub : evaluate (ESub (EPoly KZZ [1; 1] "x") (ENum 5)) = Ret (VPoly KZZ [6; 1] "x"). Proof. vm_compute. reflexivity. Qed.
Example C105_example_power : evaluate (EPow (ESub (EPoly KZZ [1; 1] "x") (EPoly KZZ [1; 1] "x")) 1) = Raise IndexError. Proof. vm_compute. reflexivity. Qed.
Example C105_example_division : quo_rem_number [5; -7; 6] 3 = Ret ([1; -3; 2], [2; 2]) /\ quo_rem_number [5; -7; 5] 3 = Raise ValueError /\ pseudo_quo_rem_number [5; -7; 6] 3 = Ret ([45; -63; 54], [0]) /\ pseudo_quo_rem_number [5; -7; 6] 0 = Ret ([0], [0]).
Proof. vm_compute. auto. Qed.
