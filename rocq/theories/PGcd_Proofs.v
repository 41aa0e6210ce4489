(** * Proofs: contents, Gauss's lemma and common divisors of polynomials *)
From Coq Require Import ZArith List Bool Lia Znumtheory.
From Verif Require Import Base Py Sums NT Core_Model Core_Proofs Poly_Spec Poly_Model Poly_Proofs Poly_Proofs2 Poly_Proofs3 Poly_Proofs4 PGcd_Spec PGcd_Model.
Import ListNotations.
Open Scope Z_scope.

Definition prim (L : list Z) : Prop := forall k, (forall i, (k | rd L i)) -> (k | 1).
Definition nonzero (L : list Z) : Prop := exists i, rd L i <> 0.
Definition zg (L : list Z) : Z := fold_right Z.gcd 0 L.

Lemma zg_nonneg L : 0 <= zg L. Proof. destruct L; [apply Z.le_refl|apply Z.gcd_nonneg]. Qed.
Lemma zg_divides L i : (zg L | rd L i).
Proof.
  revert i. induction L as [|a L IH]; intros i; [rewrite rd_nil; apply Z.divide_0_r|]. rewrite rd_cons. cbn [zg fold_right].
  destruct (Z.eqb_spec i 0); [apply Z.gcd_divide_l|]. etransitivity; [apply Z.gcd_divide_r|apply IH].
Qed.
Lemma zg_greatest L k : (forall i, (k | rd L i)) -> (k | zg L).
Proof.
  induction L as [|a L IH]; intros H; [apply Z.divide_0_r|]. cbn [zg fold_right]. apply Z.gcd_greatest; [specialize (H 0); rewrite rd_cons in H; exact H|].
  apply IH. intros i. specialize (H (i + 1)). rewrite rd_cons in H. destruct (Z.eqb_spec (i + 1) 0); [rewrite rd_neg by lia; apply Z.divide_0_r|]. replace (i + 1 - 1) with i in H by ring. exact H.
Qed.
Lemma zg_pos L : nonzero L -> 0 < zg L.
Proof. intros (i & N). pose proof (zg_nonneg L). destruct (Z.eq_dec (zg L) 0) as [E|]; [|lia]. destruct N. apply Z.divide_0_l. rewrite <- E. apply zg_divides. Qed.

(** The list without its content. *)
Lemma decompose L c : nonzero L -> Z.abs c = zg L -> (forall i, rd L i = c * rd (map (fun a => a / c) L) i) /\ prim (map (fun a => a / c) L).
Proof.
  intros N E. pose proof (zg_pos L N). assert (C : c <> 0) by lia.
  assert (R : forall i, rd L i = c * rd (map (fun a => a / c) L) i).
  { intros i. rewrite rd_map by (apply Z.div_0_l; exact C). apply Z_div_exact_full_2; [exact C|]. apply Z.mod_divide; [exact C|]. apply Z.divide_abs_l. rewrite E. apply zg_divides. }
  split; [exact R|]. intros k K. assert (D : (zg L * k | zg L)). { apply zg_greatest. intros i. rewrite R, <- E. destruct (K i) as (z & ->). destruct (Z.abs_eq_or_opp c) as [-> | ->]; [exists z; ring|exists (- z); ring]. }
  destruct D as (z & Dz). exists z. assert (zg L * 1 = zg L * (z * k)) as X by lia. apply Z.mul_cancel_l in X; lia.
Qed.
Lemma prim_nonzero u : prim u -> nonzero u.
Proof.
  intros P. destruct (Z.eq_dec (zg u) 0) as [E|E].
  - exfalso. enough (0 | 1) as D by (destruct D; lia). apply P. intros i. rewrite <- E. apply zg_divides.
  - enough (forall L, zg L <> 0 -> nonzero L) as H by (apply H; exact E). clear. induction L as [|a L IH]; intros N; [cbn in N; lia|]. cbn [zg fold_right] in N. fold (zg L) in N.
    destruct (Z.eq_dec a 0) as [->|A]; [|exists 0; rewrite rd_cons; exact A]. destruct IH as (i & R); [intros E; rewrite E in N; apply N; reflexivity|].
    exists (i + 1). rewrite rd_cons. destruct (Z.eqb_spec (i + 1) 0); [rewrite rd_neg in R by lia; congruence|]. replace (i + 1 - 1) with i by ring. exact R.
Qed.

(** Gauss's lemma. *)
Lemma gauss_prime p : prime p -> forall n A B, (length A + length B <= n)%nat -> (forall i, (p | conv (rd A) (rd B) i)) -> (forall i, (p | rd A i)) \/ (forall i, (p | rd B i)).
Proof.
  intros P. induction n as [|n IH]; intros A B L H.
  { left. intros i. destruct A; [rewrite rd_nil; apply Z.divide_0_r|cbn in L; lia]. }
  destruct A as [|a A]; [left; intros i; rewrite rd_nil; apply Z.divide_0_r|]. destruct B as [|b B]; [right; intros i; rewrite rd_nil; apply Z.divide_0_r|].
  assert (S0 : forall a (A M : list Z), (p | a) -> (forall i, (p | conv (rd (a :: A)) (rd M) i)) -> forall i, (p | conv (rd A) (rd M) i)).
  { clear. intros a A M Da H i. destruct (Z.ltb_spec i (-1)); [rewrite conv_neg by lia; apply Z.divide_0_r|]. specialize (H (i + 1)). rewrite conv_head in H by lia.
    rewrite (conv_ext (fun j => rd (a :: A) (j + 1)) (rd A) (rd M) (rd M)) in H; [| |reflexivity].
    - replace (i + 1 - 1) with i in H by lia. change (rd (a :: A) 0) with a in H. apply Z.divide_add_cancel_r with (2 := H). apply Z.divide_mul_l. exact Da.
    - intros j Hj. rewrite rd_cons. destruct (Z.eqb_spec (j + 1) 0); [lia|]. f_equal. ring. }
  assert (S1 : forall a (A : list Z), (p | a) -> (forall i, (p | rd A i)) -> forall i, (p | rd (a :: A) i)) by (intros a0 A0 Da DA i; rewrite rd_cons; destruct (i =? 0); [exact Da|apply DA]).
  assert (H0 : (p | a * b)). { specialize (H 0). rewrite conv_Sum, Sum_one in H. exact H. }
  cbn [length] in L. apply (prime_mult p P) in H0 as [D|D].
  - destruct (IH A (b :: B) ltac:(cbn [length]; lia) (S0 a A _ D H)) as [X|X]; [left; apply S1; assumption|right; exact X].
  - assert (H' : forall i, (p | conv (rd (b :: B)) (rd (a :: A)) i)) by (intros i; rewrite conv_comm; apply H).
    destruct (IH B (a :: A) ltac:(cbn [length]; lia) (S0 b B _ D H')) as [X|X]; [right; apply S1; assumption|left; exact X].
Qed.

Lemma scale_out s p : (forall i, (p | rd s i)) -> exists s', forall i, rd s i = p * rd s' i.
Proof.
  intros H. destruct (Z.eq_dec p 0) as [->|N]; [exists []; intros i; specialize (H i); apply Z.divide_0_l in H; lia|].
  exists (map (fun a => a / p) s). intros i. rewrite rd_map by (apply Z.div_0_l; exact N). apply Z_div_exact_full_2; [exact N|]. apply Z.mod_divide; [exact N|apply H].
Qed.

(** A constant that divides a product with a primitive polynomial divides the other factor. *)
Lemma gauss u : prim u -> forall c, 0 < c -> forall s, (forall i, (c | conv (rd u) (rd s) i)) -> forall i, (c | rd s i).
Proof.
  intros Pu c C. generalize C. apply (Z_lt_induction (fun c => 0 < c -> forall s, (forall i, (c | conv (rd u) (rd s) i)) -> forall i, (c | rd s i))); [|lia].
  clear c C. intros c IH C s H i. destruct (Z.eq_dec c 1) as [->|C1]; [apply Z.divide_1_l|].
  destruct (prime_divisor_exists c ltac:(lia)) as (p & P & (c' & ->)). pose proof (prime_ge_2 p P).
  assert (Hp : forall i, (p | conv (rd u) (rd s) i)) by (intros j; etransitivity; [|apply H]; exists c'; ring).
  destruct (gauss_prime p P _ u s (Nat.le_refl _) Hp) as [X|X]; [apply Pu in X; apply Z.divide_1_r in X; lia|].
  destruct (scale_out s p X) as (s' & R). rewrite R. rewrite (Z.mul_comm c' p). apply Z.mul_divide_mono_l. apply IH; [nia|nia|].
  intros j. specialize (H j). rewrite (conv_ext (rd u) (rd u) (rd s) (fun j => p * rd s' j)) in H by (intros; try reflexivity; apply R). rewrite conv_mul_r, (Z.mul_comm c' p) in H. apply Z.mul_divide_cancel_l in H; [exact H|lia].
Qed.

Lemma prim_mul u c a : prim u -> a <> 0 -> (forall i, (c | a * rd u i)) -> (c | a).
Proof.
  intros P A H. pose proof (Z.gcd_nonneg c a). destruct (Z.eq_dec (Z.gcd c a) 0) as [E|E]; [apply Z.gcd_eq_0_r in E; congruence|].
  destruct (Z.gcd_divide_l c a) as (c' & Ec). destruct (Z.gcd_divide_r c a) as (a' & Ea). set (g := Z.gcd c a) in *.
  assert (R : rel_prime c' a'). { apply Zgcd_1_rel_prime. assert (X : g = Z.gcd c' a' * g) by (unfold g at 1; rewrite Ec, Ea at 1; rewrite Z.gcd_mul_mono_r, Z.abs_eq by assumption; reflexivity). nia. }
  assert (D : (c' | 1)). { apply P. intros i. apply (Gauss c' a'); [|exact R]. specialize (H i). rewrite Ec, Ea in H. replace (a' * g * rd u i) with (a' * rd u i * g) in H by ring. apply Z.mul_divide_cancel_r in H; assumption. }
  rewrite Ec, Ea. apply Z.mul_divide_mono_r. etransitivity; [exact D|apply Z.divide_1_l].
Qed.

(** Divisibility on the coefficient functions. *)
Lemma pdivides_refl p : pdivides p p.
Proof. exists [1]. intros i. rewrite conv_comm, !coef_rd. rewrite <- (conv_one_l (rd p) i) by (intros; apply rd_neg; assumption). apply conv_ext; [|reflexivity]. intros j Hj. unfold unit_series, coef. destruct (Z.ltb_spec j 0); [lia|]. destruct (Z.eqb_spec j 0) as [->|N]; [reflexivity|]. destruct (Z.to_nat j) as [|[|m]] eqn:X; [lia|reflexivity|reflexivity]. Qed.
Lemma pdivides_trans p q r : pdivides p q -> pdivides q r -> pdivides p r.
Proof.
  intros (s & S) (t & T). destruct (p_mul_ok s t) as (w & _ & _ & W). exists w. intros i. rewrite T. rewrite (conv_ext (coef q) (conv (coef p) (coef s)) (coef t) (coef t)) by (intros; try reflexivity; apply S).
  rewrite conv_assoc. apply conv_ext; [reflexivity|]. intros j _. symmetry. apply W.
Qed.
Lemma pdivides_ext p q q' : (forall i, rd q i = rd q' i) -> pdivides p q -> pdivides p q'.
Proof. intros E (s & S). exists s. intros i. rewrite !coef_rd, <- E. apply S. Qed.
Lemma pdivides_scale p q q' c : (forall i, rd q' i = c * rd q i) -> pdivides p q -> pdivides p q'.
Proof. intros E (s & S). exists (map (Z.mul c) s). intros i. rewrite !coef_rd, E. change (rd q i) with (coef q i). rewrite S, <- conv_mul_r. apply conv_ext; [reflexivity|]. intros j _. rewrite !coef_rd, rd_map by ring. reflexivity. Qed.
Lemma pdivides_sub w p q r : (forall i, rd r i = rd p i - rd q i) -> pdivides w p -> pdivides w q -> pdivides w r.
Proof.
  intros E (s & S) (t & T). destruct (p_sub_ok s t) as (z & _ & _ & X). exists z. intros i. rewrite (conv_comm _ (coef z)). rewrite (conv_ext (coef z) (fun j => rd s j - rd t j) (coef w) (coef w)) by (intros; try reflexivity; apply X).
  rewrite conv_sub_l, !(conv_comm _ (coef w)). rewrite coef_rd, E. change (rd p i) with (coef p i). change (rd q i) with (coef q i). rewrite S, T. reflexivity.
Qed.
Lemma pdivides_mul w q v r : (forall i, rd r i = conv (rd q) (rd v) i) -> pdivides w v -> pdivides w r.
Proof. intros E D. eapply pdivides_trans; [exact D|]. exists q. intros i. rewrite coef_rd, E, conv_comm. reflexivity. Qed.

(** A primitive divisor of a multiple of u divides u. *)
Lemma prim_divides w u c u' : prim w -> c <> 0 -> (forall i, rd u' i = c * rd u i) -> pdivides w u' -> pdivides w u.
Proof.
  intros P C E (s & S). assert (D : forall i, (c | rd s i)).
  { intros i. apply Z.divide_abs_l. apply (gauss w P (Z.abs c)); [lia|]. intros j. apply Z.divide_abs_l. change (conv (rd w) (rd s) j) with (conv (coef w) (coef s) j). rewrite <- (S j), coef_rd, E. exists (rd u j). ring. }
  destruct (scale_out s c D) as (s' & R). exists s'. intros i. assert (X : c * coef u i = c * conv (coef w) (coef s') i).
  { rewrite <- conv_mul_r, coef_rd, <- E. change (rd u' i) with (coef u' i). rewrite S. apply conv_ext; [reflexivity|]. intros j _. apply R. }
  apply Z.mul_cancel_l in X; assumption.
Qed.

Lemma pdivides_nonzero w p : pdivides w p -> nonzero p -> nonzero w.
Proof.
  intros (s & S) (i & N). destruct (Z.eq_dec (zg w) 0) as [E|E]; [|].
  - destruct N. change (rd p i) with (coef p i). rewrite S. apply conv_zero_l. intros j. apply Z.divide_0_l. rewrite <- E. apply zg_divides.
  - destruct (Z.eq_dec 0 0) as [_|]; [|congruence]. clear - E. induction w as [|a L IH]; [cbn in E; lia|]. cbn [zg fold_right] in E. fold (zg L) in E.
    destruct (Z.eq_dec a 0) as [->|A]; [|exists 0; rewrite rd_cons; exact A]. destruct IH as (i & R); [intros E'; rewrite E' in E; apply E; reflexivity|].
    exists (i + 1). rewrite rd_cons. destruct (Z.eqb_spec (i + 1) 0); [rewrite rd_neg in R by lia; congruence|]. replace (i + 1 - 1) with i by ring. exact R.
Qed.

(** The greatest common divisor of two polynomials, from that of their primitive parts. *)
Lemma pgcd_scale a b u v t w ca cb : prim u -> prim v -> ca <> 0 -> cb <> 0 -> (forall i, rd a i = ca * rd u i) -> (forall i, rd b i = cb * rd v i) ->
  is_pgcd t u v -> (forall i, rd w i = Z.gcd ca cb * rd t i) -> is_pgcd w a b.
Proof.
  intros Pu Pv Ca Cb Ea Eb (Tu & Tv & Tg) Ew. set (d := Z.gcd ca cb) in *.
  assert (Side : forall a u ca, (d | ca) -> (forall i, rd a i = ca * rd u i) -> pdivides t u -> pdivides w a).
  { intros a0 u0 c0 (e & ->) E0 D0. apply (pdivides_trans _ (map (Z.mul d) u0)).
    - destruct D0 as (s & S). exists s. intros i. rewrite coef_rd, rd_map by ring. change (rd u0 i) with (coef u0 i). rewrite S, <- conv_mul_l. apply conv_ext; [|reflexivity]. intros j _. symmetry. apply Ew.
    - apply (pdivides_scale _ (map (Z.mul d) u0) _ e); [|apply pdivides_refl]. intros i. rewrite E0, rd_map by ring. ring. }
  split; [apply (Side a u ca); [apply Z.gcd_divide_l|exact Ea|exact Tu]|]. split; [apply (Side b v cb); [apply Z.gcd_divide_r|exact Eb|exact Tv]|].
  intros z Za Zb. assert (Nz : nonzero z). { apply (pdivides_nonzero z a Za). destruct (prim_nonzero u Pu) as (i & N). exists i. rewrite Ea. intros E. apply Z.mul_eq_0 in E. tauto. }
  set (c := zg z). destruct (decompose z c Nz) as (Rz & Pz); [apply Z.abs_eq, zg_nonneg|]. set (z' := map (fun x => x / c) z) in *.
  assert (Cc : forall a u ca, ca <> 0 -> prim u -> (forall i, rd a i = ca * rd u i) -> pdivides z a -> (c | ca) /\ pdivides z' u).
  { intros a0 u0 c0 C0 P0 E0 (s & S). assert (X : forall i, coef a0 i = c * conv (coef z') (coef s) i) by (intros i; rewrite S, <- conv_mul_l; apply conv_ext; [intros j _; apply Rz|reflexivity]). split.
    - apply (prim_mul u0); [exact P0|exact C0|]. intros i. rewrite <- E0. change (rd a0 i) with (coef a0 i). rewrite X. exists (conv (coef z') (coef s) i). ring.
    - apply (prim_divides z' u0 c0 a0 Pz C0 E0). exists (map (Z.mul c) s). intros i. rewrite X, <- conv_mul_r. apply conv_ext; [reflexivity|]. intros j _. rewrite !coef_rd, rd_map by ring. reflexivity. }
  destruct (Cc a u ca Ca Pu Ea Za) as (Da & Ua). destruct (Cc b v cb Cb Pv Eb Zb) as (Db & Ub). assert (D : (c | d)) by (apply Z.gcd_greatest; assumption). destruct D as (e & D).
  destruct (Tg z' Ua Ub) as (s & S). exists (map (Z.mul e) s). intros i. rewrite coef_rd, Ew, D. change (rd t i) with (coef t i). rewrite S.
  rewrite (conv_ext (coef z) (fun j => c * rd z' j) (coef (map (Z.mul e) s)) (fun j => e * rd s j)) by (intros; rewrite coef_rd; try apply Rz; apply rd_map; ring). rewrite conv_mul_l, conv_mul_r. rewrite Z.mul_assoc, (Z.mul_comm c). reflexivity.
Qed.
