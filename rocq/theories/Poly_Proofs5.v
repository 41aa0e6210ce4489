(** * quo_rem for every leading coefficient: the quotient by floor division *)
From Coq Require Import ZArith List Lia Bool.
From Verif Require Import Base Py Lists Sums Poly_Spec Poly_Model Poly_Proofs Poly_Proofs2 Poly_Proofs3 Poly_Proofs4.
Import ListNotations.
Open Scope Z_scope.

(** The upper coefficients of the remainder are residues modulo the leading coefficient of b. *)
Lemma quo_rem_floor a b : b <> [] -> rd b (zlen b - 1) <> 0 -> zlen b <= zlen a -> rd a (zlen a - 1) mod rd b (zlen b - 1) = 0 ->
  exists q r, quo_rem a b = Ret (q, r) /\ normal q /\ normal r /\ (forall t, rd a t = conv (rd q) (rd b) t + rd r t) /\
    forall t, zlen b - 1 <= t -> rd r t mod rd b (zlen b - 1) = rd r t.
Proof.
  intros Nb Hlc L M. assert (1 <= zlen b) by (unfold zlen; destruct b; [congruence|cbn [length]; lia]).
  rewrite quo_rem_unfold by assumption. destruct (Z.eqb_spec (rd b (zlen b - 1)) 0); [congruence|]. rewrite M. cbn [Z.eqb negb].
  destruct (qr_loop a b ltac:(lia) Hlc (fun c q r => forall t, zlen b - 1 + c <= t -> rd r t mod rd b (zlen b - 1) = rd r t)) as (q & r & E & Lq & R & J).
  - intros t Ht. rewrite rd_top by lia. apply Z.mod_0_l. exact Hlc.
  - intros c q r q' r' Hc Lr _ J Rq Rr t Ht. rewrite Rr. destruct (Z.eq_dec t (zlen b - 1 + c)) as [->|D].
    + replace (zlen b - 1 + c - c) with (zlen b - 1) by lia. replace (zlen b - 1 + c) with (c + zlen b - 1) by lia. generalize (rd r (c + zlen b - 1)). intros x. replace (x - x / rd b (zlen b - 1) * rd b (zlen b - 1)) with (x mod rd b (zlen b - 1)) by (rewrite Z.mod_eq by exact Hlc; ring). apply Z.mod_mod. exact Hlc.
    + rewrite (rd_top b (t - c)) by lia. rewrite Z.mul_0_r, Z.sub_0_r. apply J. lia.
  - rewrite E. cbn [bind]. destruct (polynomial_ok q) as (Nq & Rq). destruct (polynomial_ok r) as (Nr & Rr). exists (polynomial q), (polynomial r). split; [reflexivity|]. split; [exact Nq|]. split; [exact Nr|]. split.
    + intros t. rewrite Rr, (conv_ext _ (rd q) _ (rd b)) by (intros; try apply Rq; reflexivity). rewrite R. lia.
    + intros t Ht. rewrite Rr. apply J. lia.
Qed.

(** A residue modulo m, in the range of the sign of m. *)
Lemma residue_iff x m : m <> 0 -> (x mod m = x <-> 0 <= x < m \/ m < x <= 0).
Proof.
  intros H. split.
  - intros E. destruct (Z.lt_ge_cases 0 m); [left; pose proof (Z.mod_pos_bound x m); lia|right; pose proof (Z.mod_neg_bound x m); lia].
  - intros [X|X]; [apply Z.mod_small; exact X|]. symmetry. apply (Z.mod_unique x m 0 x); lia.
Qed.

(** There is at most one such quotient. *)
Lemma quo_rem_unique (b : list Z) q r q' r' : b <> [] -> rd b (zlen b - 1) <> 0 -> normal q -> normal r -> normal q' -> normal r' ->
  (forall t, conv (rd q) (rd b) t + rd r t = conv (rd q') (rd b) t + rd r' t) ->
  (forall t, zlen b - 1 <= t -> rd r t mod rd b (zlen b - 1) = rd r t) -> (forall t, zlen b - 1 <= t -> rd r' t mod rd b (zlen b - 1) = rd r' t) -> q = q' /\ r = r'.
Proof.
  intros Nb Hlc Nq Nr Nq' Nr' E H H'. assert (Lb : 1 <= zlen b) by (unfold zlen; destruct b; [congruence|cbn [length]; lia]).
  set (N := Z.max (zlen q) (zlen q')).
  assert (D : forall n i, 0 <= i -> N - Z.of_nat n <= i -> rd q i = rd q' i).
  { induction n as [|n IH]; intros i Hi Hn; [rewrite !rd_top by lia; reflexivity|].
    assert (T : forall j, i < j -> rd q j - rd q' j = 0) by (intros j Hj; rewrite IH by lia; lia).
    pose proof (conv_top_coef (fun j => rd q j - rd q' j) (rd b) i (zlen b - 1) Hi ltac:(lia) T (fun j Hj => rd_top b j ltac:(lia)) (fun j Hj => ltac:(cbn beta; rewrite !rd_neg by lia; lia))) as C.
    rewrite conv_sub_l in C. specialize (E (i + (zlen b - 1))). specialize (H (i + (zlen b - 1)) ltac:(lia)). specialize (H' (i + (zlen b - 1)) ltac:(lia)).
    apply residue_iff in H; [|exact Hlc]. apply residue_iff in H'; [|exact Hlc]. cbn beta in C. nia. }
  assert (Eq : forall i, rd q i = rd q' i) by (intros i; destruct (Z.lt_ge_cases i 0); [rewrite !rd_neg by lia; reflexivity|apply (D (Z.to_nat N)); lia]).
  split; [apply normal_ext; assumption|]. apply normal_ext; [assumption|assumption|]. intros t. specialize (E t). rewrite (conv_ext (rd q) (rd q') (rd b) (rd b)) in E by (intros; try apply Eq; reflexivity). lia.
Qed.
