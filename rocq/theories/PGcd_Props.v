(** * C92: content, primitive part and greatest common divisor of polynomials *)
From Coq Require Import ZArith List Bool Lia Znumtheory.
From Verif Require Import Base Py Sums Core_Model Poly_Spec Poly_Model Poly_Proofs Poly_Proofs3 PGcd_Spec PGcd_Model PGcd_Proofs PGcd_Proofs2 PGcd_Proofs3.
Import ListNotations.
Open Scope Z_scope.

(** The content is a greatest common divisor of the coefficients, and it is not negative unless the polynomial is a
    negative constant. *)
Theorem C92_content : forall p, normal p -> exists c, content p = Ret c /\ (0 <= c \/ p = [c]) /\
  forall k, (k | c) <-> forall i, (k | coef p i).
Proof.
  intros p N. destruct (gcd_list_ok p (proj1 N)) as (c & E & A & Pos & One). exists c. split; [exact E|]. split.
  - destruct p as [|a [|b p]]; [destruct (proj1 N eq_refl)|right; f_equal; symmetry; apply One; reflexivity|left; apply Pos; cbn; lia].
  - intros k. split.
    + intros K i. etransitivity; [exact K|]. apply Z.divide_abs_l. rewrite A. apply zg_divides.
    + intros K. apply Z.divide_abs_r. rewrite A. apply zg_greatest. exact K.
Qed.

(** The primitive part of a polynomial other than 0: primitive, a constant times it is the polynomial, and its leading
    coefficient is positive unless the polynomial is a constant. *)
Theorem C92_primitive_part : forall p, normal p -> p <> [0] -> exists c u, primitive_part p = Ret u /\ normal u /\ primitive u /\
  c <> 0 /\ (forall i, coef p i = c * coef u i) /\ length u = length p /\ (length p = 1%nat \/ 0 < last u 0).
Proof.
  intros p N Z0. destruct (zero_list p N) as [|Zp]; [congruence|]. destruct (primitive_part_ok p N Zp) as (c0 & c & u & _ & _ & _ & C & E & Nu & P & L & R & S & _).
  assert (Ll : length u = length p) by (unfold zlen in L; lia). exists c, u. split; [exact E|]. split; [exact Nu|]. split; [exact P|]. split; [exact C|]. split; [exact R|]. split; [exact Ll|]. rewrite <- Ll. exact S.
Qed.

(** "It is conventional to define the primitive part so that its leading coefficient is positive": not so for negative
    constants; and there is none for 0. *)
Theorem C92_primitive_part_refuted : forall a, a < 0 -> primitive_part [a] = Ret [-1].
Proof.
  intros a A. unfold primitive_part. cbn [gcd_list bind last]. assert (E : (a <? 0) = true) by (apply Z.ltb_lt; exact A). cbn. rewrite E. cbn. unfold pydiv.
  destruct (Z.eqb_spec (- a) 0); [lia|]. cbn [bind]. replace (a / - a) with (-1); [reflexivity|]. symmetry. replace a with (-1 * (- a)) at 1 by ring. apply Z.div_mul. lia.
Qed.
Theorem C92_primitive_part_zero : primitive_part [0] = Raise ZeroDivisionError.
Proof. reflexivity. Qed.

(** Whatever gcd returns divides both polynomials, and it is their greatest common divisor if it is not a constant, or if
    the two polynomials have no common divisors but constants. *)
Theorem C92_gcd_sound : forall overflow float_rounds a b w, normal a -> normal b ->
  p_gcd overflow float_rounds a b = Ret w -> pdivides w a /\ pdivides w b /\
  (~ constant w \/ (forall t, pdivides t a -> pdivides t b -> constant t) -> is_pgcd w a b).
Proof.
  intros ov fr a b w Na Nb E. destruct (zero_list a Na) as [Ea|Za]; [rewrite (p_gcd_zero ov fr a b) in E by (tauto || apply Na || apply Nb); discriminate|].
  destruct (zero_list b Nb) as [Eb|Zb]; [rewrite (p_gcd_zero ov fr a b) in E by (tauto || apply Na || apply Nb); discriminate|]. destruct (Z.le_gt_cases (zlen b) (zlen a)) as [L|L].
  - apply (run_sound ov fr a b w Na Za Nb Zb L a b); [tauto|exact E].
  - destruct (run_sound ov fr b a w Nb Zb Na Za ltac:(lia) a b) as (X & Y & H); [tauto|exact E|]. split; [exact Y|]. split; [exact X|]. intros K. apply is_pgcd_sym, H. destruct K as [K|K]; [left; exact K|right; intros t T1 T2; apply K; assumption].
Qed.

(** If one of them divides a multiple of the other one, which has no smaller degree, then gcd returns the greatest common
    divisor. *)
Theorem C92_gcd_multiple : forall overflow float_rounds a b c z, normal a -> a <> [0] -> normal b -> b <> [0] -> (length b <= length a)%nat ->
  c <> 0 -> (forall i, coef z i = c * coef a i) -> pdivides b z ->
  exists w w', p_gcd overflow float_rounds a b = Ret w /\ p_gcd overflow float_rounds b a = Ret w' /\ is_pgcd w a b /\ is_pgcd w' b a /\
    length w = length b /\ length w' = length b.
Proof.
  intros ov fr a b c z Na Za Nb Zb L C R D. destruct (zero_list a Na) as [|Za']; [congruence|]. destruct (zero_list b Nb) as [|Zb']; [congruence|].
  destruct (run_multiple ov fr a b c z Na Za' Nb Zb' ltac:(unfold zlen; lia) C R D) as (w & E & E' & G & Lw). assert (Ll : length w = length b) by (unfold zlen in Lw; lia).
  destruct (Nat.lt_ge_cases (length b) (length a)) as [Lt|Ge].
  - exists w, w. split; [exact E|]. split; [apply E'; unfold zlen; lia|]. split; [exact G|]. split; [apply is_pgcd_sym, G|]. auto.
  - assert (Dz : exists c' z', c' <> 0 /\ (forall i, rd z' i = c' * rd b i) /\ pdivides a z').
    { destruct D as (s & S). destruct (polynomial_ok s) as (Ns & Rs). set (s' := polynomial s) in *. assert (S' : forall i, coef z i = conv (coef b) (coef s') i) by (intros i; rewrite S; apply Poly_Proofs.conv_ext; [reflexivity|intros j _; symmetry; apply Rs]).
      assert (Zs : nonzero s'). { destruct (zero_list s' Ns) as [X|X]; [exfalso|exact X]. destruct Za' as (i & Ni). specialize (S' i). rewrite R, X, Poly_Proofs.conv_comm, Poly_Proofs.conv_zero_l in S'; [apply Z.mul_eq_0 in S'; tauto|]. intros j. rewrite coef_rd, Poly_Proofs2.rd_cons. destruct (j =? 0); [reflexivity|apply Poly_Proofs2.rd_nil]. }
      assert (Cs : constant s').
      { intros i Hi. apply (divisor_degree s' s' (pdivides_refl s') Zs 1); [|lia]. intros t Ht. destruct (Z.le_gt_cases (zlen s') 1) as [X|X]; [apply rd_top; lia|exfalso].
        pose proof (normal_lead b Nb Zb') as Lb. pose proof (normal_lead s' Ns Zs) as Ls. specialize (S' (zlen b - 1 + (zlen s' - 1))). pose proof (normal_zlen b Nb). rewrite R, coef_rd, rd_top in S' by (unfold zlen in *; lia).
        rewrite Poly_Proofs4.conv_top_coef in S'; [|lia|lia|intros; apply rd_top; lia|intros; apply rd_top; lia|intros; apply rd_neg; lia]. rewrite !coef_rd in S'. rewrite Z.mul_0_r in S'. symmetry in S'. apply Z.mul_eq_0 in S'. tauto. }
      exists (rd s' 0), z. split; [|split].
      - intros X. destruct Zs as (i & Ni). apply Ni. destruct (Z.lt_trichotomy i 0) as [Y|[->|Y]]; [apply rd_neg; lia|exact X|apply Cs; exact Y].
      - intros i. rewrite <- (coef_rd z), S', Poly_Proofs.conv_comm. rewrite (Poly_Proofs.conv_ext (coef s') (fun j => rd s' 0 * unit_series j) (coef b) (rd b)).
        + rewrite Poly_Proofs.conv_mul_l, Poly_Proofs.conv_one_l by (intros; apply rd_neg; assumption). reflexivity.
        + intros j Hj. unfold unit_series. destruct (Z.eqb_spec j 0) as [->|]; [rewrite coef_rd; ring|rewrite Cs by lia; ring].
        + reflexivity.
      - apply (pdivides_scale a a z c); [exact R|apply pdivides_refl]. }
    destruct Dz as (c' & z' & C' & R' & D'). destruct (run_multiple ov fr b a c' z' Nb Zb' Na Za' ltac:(unfold zlen; lia) C' R' D') as (w' & E2 & _ & G2 & L2).
    exists w, w'. split; [exact E|]. split; [exact E2|]. split; [exact G|]. split; [exact G2|]. split; [exact Ll|]. unfold zlen in L2. lia.
Qed.

(** If one of the degrees is at most one, then gcd returns the greatest common divisor. *)
Theorem C92_gcd_linear : forall overflow float_rounds a b, normal a -> a <> [0] -> normal b -> b <> [0] -> (length a <= 2 \/ length b <= 2)%nat ->
  exists w, p_gcd overflow float_rounds a b = Ret w /\ is_pgcd w a b.
Proof.
  intros ov fr a b Na Za Nb Zb H. destruct (zero_list a Na) as [|Za']; [congruence|]. destruct (zero_list b Nb) as [|Zb']; [congruence|].
  destruct (Z.le_gt_cases (zlen b) (zlen a)) as [L|L].
  - destruct (run_small ov fr a b Na Za' Nb Zb' L ltac:(unfold zlen in *; lia)) as ([(w & E & G)|[(X & _)|(X & _)]] & _); [exists w; auto|unfold zlen in *; lia|unfold zlen in *; lia].
  - destruct (run_small ov fr b a Nb Zb' Na Za' ltac:(lia) ltac:(unfold zlen in *; lia)) as (_ & Q). destruct (Q L) as [(w & E & G)|[(X & _)|(X & _)]]; [exists w; split; [exact E|apply is_pgcd_sym; exact G]|unfold zlen in *; lia|unfold zlen in *; lia].
Qed.

(** If one of the degrees is two and the other one is not smaller, then gcd returns the greatest common divisor or fails;
    it can fail with AttributeError only if there is a common divisor that is not a constant, and with OverflowError only
    if the degrees are two and three and a leading coefficient is no floating point number. *)
Theorem C92_gcd_quadratic : forall overflow float_rounds a b x y, normal a -> a <> [0] -> normal b -> b <> [0] ->
  length b = 3%nat -> (3 <= length a)%nat -> (x = a /\ y = b \/ x = b /\ y = a) ->
  (exists w, p_gcd overflow float_rounds x y = Ret w /\ is_pgcd w a b) \/
  (p_gcd overflow float_rounds x y = Raise AttributeError /\ exists w, ~ constant w /\ pdivides w a /\ pdivides w b) \/
  (p_gcd overflow float_rounds x y = Raise OverflowError /\ length a = 4%nat /\ exists v, primitive_part b = Ret v /\ overflow (last v 0) = true).
Proof.
  intros ov fr a b x y Na Za Nb Zb Lb La XY. destruct (zero_list a Na) as [|Za']; [congruence|]. destruct (zero_list b Nb) as [|Zb']; [congruence|].
  assert (Conv : forall R, small_result ov a b R -> (exists w, R = Ret w /\ is_pgcd w a b) \/ (R = Raise AttributeError /\ exists w, ~ constant w /\ pdivides w a /\ pdivides w b) \/ (R = Raise OverflowError /\ length a = 4%nat /\ exists v, primitive_part b = Ret v /\ ov (last v 0) = true)).
  { intros R [X|[(_ & X & Y)|(_ & X & Y & V)]]; [left; exact X|right; left; auto|right; right; split; [exact Y|]; split; [unfold zlen in X; lia|exact V]]. }
  destruct (run_small ov fr a b Na Za' Nb Zb' ltac:(unfold zlen; lia) ltac:(unfold zlen; lia)) as (R1 & R2). destruct XY as [(-> & ->)|(-> & ->)]; [apply Conv, R1|].
  destruct (Nat.eq_dec (length a) 3) as [E|N]; [|apply Conv, R2; unfold zlen; lia].
  destruct (run_small ov fr b a Nb Zb' Na Za' ltac:(unfold zlen; lia) ltac:(unfold zlen; lia)) as (R3 & _). destruct R3 as [(w & X & Y)|[(_ & X & (w & C & D1 & D2))|(_ & X & _)]]; [left; exists w; split; [exact X|apply is_pgcd_sym, Y]|right; left; split; [exact X|exists w; auto]|unfold zlen in X; lia].
Qed.

(** And it does fail whenever the greatest common divisor has degree one, i.e. whenever there is a common divisor that is
    not a constant and the quadratic polynomial divides no multiple of the other one. *)
Theorem C92_gcd_quadratic_fails : forall overflow float_rounds a b t, normal a -> a <> [0] -> normal b -> b <> [0] ->
  length b = 3%nat -> (3 <= length a)%nat -> pdivides t a -> pdivides t b -> ~ constant t ->
  (forall c z, c <> 0 -> (forall i, coef z i = c * coef a i) -> ~ pdivides b z) ->
  forall w, p_gcd overflow float_rounds a b <> Ret w.
Proof.
  intros ov fr a b t Na Za Nb Zb Lb La Ta Tb Nt ND w. destruct (zero_list a Na) as [|Za']; [congruence|]. destruct (zero_list b Nb) as [|Zb']; [congruence|].
  apply (run_error ov fr a b Na Za' Nb Zb' ltac:(unfold zlen; lia) ltac:(unfold zlen; lia)); [exists t; auto|exact ND].
Qed.

Theorem C92_gcd_zero : forall overflow float_rounds a, normal a ->
  p_gcd overflow float_rounds a [0] = Raise ZeroDivisionError /\ p_gcd overflow float_rounds [0] a = Raise ZeroDivisionError.
Proof. intros ov fr a N. split; apply p_gcd_zero; (tauto || discriminate || apply N). Qed.

Theorem C92_gcd_ends : forall overflow float_rounds a b, (forall u v r, float_rounds u v r <> Diverge) -> normal a -> normal b ->
  p_gcd overflow float_rounds a b <> Diverge.
Proof. intros ov fr a b F Na Nb. apply p_gcd_ends; assumption. Qed.

(** gcd does not always return the greatest common divisor: it fails on (x - 1)(x - 2) and (x - 1)(x - 3), and on
    (x - 1)(5x^4 + 3x^3 + 1) and (x - 1)(3x^2 + 7x + 1) it returns 1. *)
Theorem C92_gcd_refuted : forall overflow float_rounds,
  p_gcd overflow float_rounds [2; -3; 1] [3; -4; 1] = Raise AttributeError.
Proof. intros ov fr. vm_compute. reflexivity. Qed.

Theorem C92_gcd_wrong_refuted : forall overflow float_rounds,
  let a := [-1; 1; 0; -3; -2; 5] in let b := [-1; -6; 4; 3] in
  p_gcd overflow float_rounds a b = Ret [1] /\ pdivides [-1; 1] a /\ pdivides [-1; 1] b /\ ~ is_pgcd [1] a b.
Proof.
  intros ov fr a b.
  assert (M : forall s p, mul_classical [-1; 1] s = Ret p -> pdivides [-1; 1] p).
  { intros s p E. destruct (Poly_Proofs.mul_classical_ok [-1; 1] s) as (P & E' & _ & R). rewrite E in E'. injection E' as ->. exists s. exact R. }
  assert (Da : pdivides [-1; 1] a) by (apply (M [1; 0; 0; 3; 5]); reflexivity). assert (Db : pdivides [-1; 1] b) by (apply (M [1; 7; 3]); reflexivity).
  split; [vm_compute; reflexivity|]. split; [exact Da|]. split; [exact Db|]. intros (_ & _ & H). specialize (H _ Da Db).
  assert (X : rd [-1; 1] 1 = 0); [|vm_compute in X; discriminate].
  apply (divisor_degree [-1; 1] [1] H) with (n := 1); [exists 0; vm_compute; discriminate|intros t Ht; apply rd_top; vm_compute in Ht |- *; exact Ht|lia].
Qed.

(** Non-vacuity. *)
Example C92_ex : let G := p_gcd (fun _ => false) (fun _ _ _ => Ret tt) in
  content [12; -18; 30] = Ret 6 /\ primitive_part [12; -18; -30] = Ret [-2; 3; 5] /\
  G [-12; 0; 12] [30; 30] = Ret [6; 6] /\ G [30; 30] [-12; 0; 12] = Ret [6; 6] /\
  G [1; 0; 1] [3; 1; 4; 2] = Ret [1] /\ G [2; 0; 2] [4; 2; 8; 2; 4] = Ret [2; 0; 2] /\ G [0; 4] [6] = Ret [2].
Proof. vm_compute. repeat split. Qed.
Example C92_ex_quadratic : normal [2; -3; 1] /\ normal [3; -4; 1] /\ ~ constant [-1; 1].
Proof. split; [|split]; [split; [discriminate|right; discriminate]|split; [discriminate|right; discriminate]|]. intros H. specialize (H 1 ltac:(lia)). discriminate. Qed.

Print Assumptions C92_content.
Print Assumptions C92_primitive_part.
Print Assumptions C92_primitive_part_refuted.
Print Assumptions C92_primitive_part_zero.
Print Assumptions C92_gcd_sound.
Print Assumptions C92_gcd_multiple.
Print Assumptions C92_gcd_linear.
Print Assumptions C92_gcd_quadratic.
Print Assumptions C92_gcd_quadratic_fails.
Print Assumptions C92_gcd_zero.
Print Assumptions C92_gcd_ends.
Print Assumptions C92_gcd_refuted.
Print Assumptions C92_gcd_wrong_refuted.
