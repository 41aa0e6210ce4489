(** * Coefficient lists: sum, difference, product *)
From Coq Require Import ZArith List Lia Bool.
From Verif Require Import Base Py Lists Sums Poly_Spec Poly_Model.
Import ListNotations.
Open Scope Z_scope.

Lemma coef_rd A i : coef A i = rd A i. Proof. reflexivity. Qed.
Lemma len_zlen A : len A = zlen A. Proof. reflexivity. Qed.
Lemma conv_Sum f g i : conv f g i = Sum 0 (i + 1) (fun j => f j * g (i - j)). Proof. reflexivity. Qed.
Lemma zlen_zeros n : 0 <= n -> zlen (zeros n) = n.
Proof. intros H. unfold zeros. rewrite zlen_repeat. lia. Qed.
Lemma rd_zeros n i : rd (zeros n) i = 0. Proof. apply rd_repeat. Qed.

(** ** The algebra of series *)
Lemma conv_ext f f' g g' i : (forall j, 0 <= j <= i -> f j = f' j) -> (forall j, 0 <= j <= i -> g j = g' j) -> conv f g i = conv f' g' i.
Proof. intros Hf Hg. rewrite !conv_Sum. apply Sum_ext. intros j Hj. rewrite Hf, Hg by lia. reflexivity. Qed.
Lemma conv_neg f g i : i < 0 -> conv f g i = 0.
Proof. intros H. rewrite conv_Sum. apply Sum_nil. lia. Qed.
Lemma conv_comm f g i : conv f g i = conv g f i.
Proof.
  rewrite !conv_Sum, <- (Sum_rev 0 (i + 1)). apply Sum_ext. intros j Hj. replace (0 + (i + 1) - 1 - j) with (i - j) by lia. replace (i - (i - j)) with j by lia. apply Z.mul_comm.
Qed.
Lemma conv_add_l f g h i : conv (fun j => f j + g j) h i = conv f h i + conv g h i.
Proof. rewrite !conv_Sum, <- Sum_plus. apply Sum_ext. intros; ring. Qed.
Lemma conv_sub_l f g h i : conv (fun j => f j - g j) h i = conv f h i - conv g h i.
Proof. rewrite !conv_Sum, <- Sum_minus. apply Sum_ext. intros; ring. Qed.
Lemma conv_mul_l c f h i : conv (fun j => c * f j) h i = c * conv f h i.
Proof. rewrite !conv_Sum, <- Sum_mul. apply Sum_ext. intros; ring. Qed.
Lemma conv_add_r f g h i : conv h (fun j => f j + g j) i = conv h f i + conv h g i.
Proof. rewrite conv_comm, conv_add_l, (conv_comm f), (conv_comm g). reflexivity. Qed.
Lemma conv_mul_r c f h i : conv h (fun j => c * f j) i = c * conv h f i.
Proof. rewrite conv_comm, conv_mul_l, (conv_comm f). reflexivity. Qed.
Lemma conv_one_l f i : (i < 0 -> f i = 0) -> conv unit_series f i = f i.
Proof.
  intros H. destruct (Z.lt_ge_cases i 0) as [L|L]; [rewrite conv_neg by exact L; symmetry; auto|]. rewrite conv_Sum, (Sum_pick _ _ 0).
  - unfold unit_series. rewrite Z.eqb_refl, Z.sub_0_r. lia.
  - lia.
  - intros j Hj D. unfold unit_series. destruct (Z.eqb_spec j 0); lia.
Qed.
(** f_0 x^0 split off. *)
Lemma conv_head f g i : 0 <= i -> conv f g i = f 0 * g i + conv (fun j => f (j + 1)) g (i - 1).
Proof.
  intros H. rewrite !conv_Sum, Sum_first by lia. rewrite Z.sub_0_r. f_equal. replace (i - 1 + 1) with i by lia. rewrite <- (Sum_shift 0 i 1 (fun j => f j * g (i - j))).
  apply Sum_ext. intros j _. f_equal. f_equal. lia.
Qed.
Lemma conv_assoc f g h i : conv (conv f g) h i = conv f (conv g h) i.
Proof.
  destruct (Z.lt_ge_cases i 0) as [L|L]; [rewrite !conv_neg by exact L; reflexivity|]. revert f. pattern i. apply Zlt_0_ind; [|exact L]. clear i L. intros i IH L f.
  rewrite conv_head by exact L. rewrite (conv_head f (conv g h) i L).
  assert (E : conv (fun j => conv f g (j + 1)) h (i - 1) = f 0 * conv (fun j => g (j + 1)) h (i - 1) + conv (fun j => f (j + 1)) (conv g h) (i - 1)).
  { rewrite (conv_ext _ (fun j => f 0 * g (j + 1) + conv (fun j => f (j + 1)) g j) h h); [|intros j Hj; rewrite conv_head by lia; f_equal; f_equal; lia|reflexivity].
    rewrite conv_add_l, conv_mul_l. f_equal. destruct (Z.eq_dec i 0) as [->|D]; [rewrite !conv_neg by lia; reflexivity|]. apply IH. lia. }
  assert (C0 : conv f g 0 = f 0 * g 0) by (rewrite conv_Sum, (Sum_one 0); reflexivity). rewrite E, C0, (conv_head g h i L). ring.
Qed.

(** The product of two finite sequences as a sum over the entries of the first. *)
Lemma conv_finite f g m t : 0 <= m -> (forall j, m <= j -> f j = 0) -> (forall i, i < 0 -> g i = 0) -> conv f g t = Sum 0 m (fun j => f j * g (t - j)).
Proof.
  intros Hm Hf Hg. rewrite conv_Sum. destruct (Z.lt_ge_cases t 0) as [L|L].
  - rewrite Sum_nil by lia. symmetry. apply Sum_zero. intros j Hj. rewrite (Hg (t - j)) by lia. lia.
  - destruct (Z.le_ge_cases m (t + 1)) as [M|M].
    + apply Sum_extend; [lia|]. intros j Hj. rewrite Hf by lia. lia.
    + symmetry. apply Sum_extend; [lia|]. intros j Hj. rewrite Hg by lia. lia.
Qed.

(** ** The loops *)
Lemma add_at_ok C i c : 0 <= i < zlen C -> exists C', add_at C i c = Ret C' /\ zlen C' = zlen C /\ forall j, rd C' j = rd C j + (if j =? i then c else 0).
Proof.
  intros H. unfold add_at. rewrite rd_get by exact H. cbn [bind]. destruct (rd_set C i (rd C i + c) H) as (C' & E & L & R). exists C'. split; [exact E|]. split; [exact L|].
  intros j. rewrite R. destruct (Z.eqb_spec j i) as [->|]; lia.
Qed.

Lemma add_all_ok s B C : zlen B <= zlen C -> exists C', add_all s B C = Ret C' /\ zlen C' = zlen C /\ forall i, rd C' i = rd C i + s * rd B i.
Proof.
  intros L. unfold add_all. destruct (foldM_range (fun C i => do c <- pyget B i; add_at C i (s * c)) (fun x D => zlen D = zlen C /\ forall i, rd D i = rd C i + (if i <? x then s * rd B i else 0)) 0 (len B) C) as (C' & E & LC & R).
  - apply zlen_nonneg.
  - split; [reflexivity|]. intros i. destruct (Z.ltb_spec i 0); [rewrite (rd_out B i) by lia; lia|lia].
  - intros x D Hx (LD & RD). rewrite rd_get by exact Hx. cbn [bind]. destruct (add_at_ok D x (s * rd B x)) as (D' & E & L' & R'); [change (len B) with (zlen B) in Hx; lia|]. exists D'. split; [exact E|]. split; [lia|].
    intros i. rewrite R', RD. destruct (Z.eqb_spec i x), (Z.ltb_spec i x), (Z.ltb_spec i (x + 1)); subst; try lia.
  - exists C'. split; [exact E|]. split; [exact LC|]. intros i. rewrite R. destruct (Z.ltb_spec i (len B)); [reflexivity|]. rewrite (rd_out B i) by (right; assumption). lia.
Qed.

Lemma list_add_ok A B : exists C, list_add A B = Ret C /\ zlen C = Z.max (zlen A) (zlen B) /\ forall i, rd C i = rd A i + rd B i.
Proof.
  unfold list_add. change (len B) with (zlen B). change (len A) with (zlen A). destruct (Z.leb_spec (zlen B) (zlen A)) as [L|L].
  - destruct (add_all_ok 1 B A L) as (C & E & LC & R). exists C. split; [exact E|]. split; [lia|]. intros i. rewrite R. lia.
  - destruct (add_all_ok 1 A B ltac:(lia)) as (C & E & LC & R). exists C. split; [exact E|]. split; [lia|]. intros i. rewrite R. lia.
Qed.

Lemma list_subtract_ok A B : exists C, list_subtract A B = Ret C /\ zlen C = Z.max (zlen A) (zlen B) /\ forall i, rd C i = rd A i - rd B i.
Proof.
  unfold list_subtract. change (len B) with (zlen B). change (len A) with (zlen A). destruct (Z.leb_spec (zlen B) (zlen A)) as [L|L].
  - destruct (add_all_ok (-1) B A L) as (C & E & LC & R). exists C. split; [exact E|]. split; [lia|]. intros i. rewrite R. lia.
  - destruct (add_all_ok 1 A (map Z.opp B)) as (C & E & LC & R); [rewrite zlen_map; lia|]. exists C. rewrite zlen_map in LC. split; [exact E|]. split; [lia|]. intros i. rewrite R, rd_map by reflexivity. lia.
Qed.

Lemma mul_loop_ok M N : exists P, mul_loop M N = Ret P /\ zlen P = Z.max 0 (zlen M + zlen N - 1) /\ forall i, rd P i = conv (rd M) (rd N) i.
Proof.
  unfold mul_loop. change (len M) with (zlen M). change (len N) with (zlen N). pose proof (zlen_nonneg M) as LM. pose proof (zlen_nonneg N) as LN.
  destruct (foldM_range (fun P i => foldM (fun P j => do a <- pyget M i; do b <- pyget N j; add_at P (i + j) (a * b)) (zrange 0 (zlen N)) P)
    (fun x P => zlen P = Z.max 0 (zlen M + zlen N - 1) /\ forall t, rd P t = Sum 0 x (fun j => rd M j * rd N (t - j))) 0 (zlen M) (zeros (zlen M + zlen N - 1)) LM) as (P & E & LP & R).
  - split; [unfold zeros; rewrite zlen_repeat; lia|]. intros t. rewrite rd_zeros, Sum_nil by lia. reflexivity.
  - intros x P Hx (LP & RP).
    destruct (foldM_range (fun P j => do a <- pyget M x; do b <- pyget N j; add_at P (x + j) (a * b))
      (fun y Q => zlen Q = zlen P /\ forall t, rd Q t = rd P t + (if t - x <? y then rd M x * rd N (t - x) else 0)) 0 (zlen N) P LN) as (Q & E & LQ & RQ).
    + split; [reflexivity|]. intros t. destruct (Z.ltb_spec (t - x) 0); [rewrite (rd_out N (t - x)) by lia; lia|lia].
    + intros y Q Hy (LQ & RQ). rewrite (rd_get M x Hx), (rd_get N y Hy). cbn [bind]. destruct (add_at_ok Q (x + y) (rd M x * rd N y)) as (Q' & E & L' & R'); [lia|]. exists Q'. split; [exact E|]. split; [lia|].
      intros t. rewrite R', RQ. destruct (Z.eqb_spec t (x + y)), (Z.ltb_spec (t - x) y), (Z.ltb_spec (t - x) (y + 1)); subst; try lia. replace (x + y - x) with y by lia. lia.
    + exists Q. split; [exact E|]. split; [lia|]. intros t. rewrite RQ, RP, Sum_last by lia. f_equal. destruct (Z.ltb_spec (t - x) (zlen N)); [reflexivity|]. rewrite (rd_out N (t - x)) by lia. lia.
  - exists P. split; [exact E|]. split; [exact LP|]. intros t. rewrite R. symmetry. apply conv_finite; [exact LM|intros j Hj; apply rd_out; lia|intros j Hj; apply rd_out; lia].
Qed.

Lemma conv_zero_l f g i : (forall j, f j = 0) -> conv f g i = 0.
Proof. intros H. rewrite conv_Sum. apply Sum_zero. intros j _. rewrite H. lia. Qed.

Lemma mul_classical_ok M N : exists P, mul_classical M N = Ret P /\ zlen P = (if (zlen M =? 0) || (zlen N =? 0) then 0 else zlen M + zlen N - 1) /\ forall i, rd P i = conv (rd M) (rd N) i.
Proof.
  unfold mul_classical. change (len M) with (zlen M). change (len N) with (zlen N). pose proof (zlen_nonneg M). pose proof (zlen_nonneg N).
  destruct (Z.eqb_spec (zlen M) 0) as [EM|EM]; cbn [orb].
  - exists []. split; [reflexivity|]. split; [reflexivity|]. intros i. rewrite conv_zero_l; [apply rd_out; cbn; lia|]. intros j. apply rd_out. lia.
  - destruct (Z.eqb_spec (zlen N) 0) as [EN|EN].
    + exists []. split; [reflexivity|]. split; [reflexivity|]. intros i. rewrite conv_comm, conv_zero_l; [apply rd_out; cbn; lia|]. intros j. apply rd_out. lia.
    + destruct (mul_loop_ok M N) as (P & E & L & R). exists P. split; [exact E|]. split; [lia|exact R].
Qed.

(** ** Karatsuba: writing f = f0 + x^k f1 *)
Definition shift (k : Z) (f : Z -> Z) (i : Z) : Z := f (i - k).
Lemma conv_shift k f g i : 0 <= k -> (forall j, j < 0 -> f j = 0) -> conv (shift k f) g i = conv f g (i - k).
Proof.
  intros Hk Hf. rewrite !conv_Sum. unfold shift. destruct (Z.lt_ge_cases i k) as [L|L].
  - rewrite (Sum_nil _ (i - k + 1)) by lia. apply Sum_zero. intros j Hj. rewrite Hf by lia. lia.
  - rewrite (Sum_app 0 k (i + 1)) by lia. rewrite (Sum_zero 0 k) by (intros j Hj; rewrite Hf by lia; lia). rewrite Z.add_0_l.
    replace k with (0 + k) at 1 by lia. replace (i + 1) with (i - k + 1 + k) by lia. rewrite <- (Sum_shift 0 (i - k + 1) k (fun j => f (j - k) * g (i - j))). apply Sum_ext. intros j _. f_equal; f_equal; lia.
Qed.

Lemma karatsuba_identity k f0 f1 g0 g1 i : 0 <= k -> (forall j, j < 0 -> f1 j = 0) -> (forall j, j < 0 -> g1 j = 0) ->
  conv (fun j => f0 j + shift k f1 j) (fun j => g0 j + shift k g1 j) i =
  conv f1 g1 (i - 2 * k) + (conv (fun j => f1 j + f0 j) (fun j => g1 j + g0 j) (i - k) - conv f1 g1 (i - k) - conv f0 g0 (i - k)) + conv f0 g0 i.
Proof.
  intros Hk Hf Hg. rewrite !conv_add_l, !conv_add_r. rewrite (conv_comm f0 (shift k g1)), !conv_shift by assumption. rewrite (conv_comm f1 (shift k g1)), conv_shift by assumption.
  rewrite (conv_comm g1 f0), (conv_comm g1 f1). replace (i - k - k) with (i - 2 * k) by lia. ring.
Qed.

Lemma halves k M j : 0 <= k -> rd M j = rd (low k M) j + shift k (rd (high k M)) j.
Proof.
  intros Hk. unfold low, high, shift. rewrite rd_firstn by exact Hk. destruct (Z.ltb_spec j k).
  - rewrite (rd_out _ (j - k)) by lia. lia.
  - rewrite rd_skipn by lia. replace (j - k + k) with j by lia. lia.
Qed.

(** The same for the product computed from the parts, whatever the superfluous zeros. *)
Lemma karatsuba_combine k M N z0 z2 xx f1f0 g1g0 i : 0 <= k ->
  (forall i, rd f1f0 i = rd (high k M) i + rd (low k M) i) -> (forall i, rd g1g0 i = rd (high k N) i + rd (low k N) i) ->
  (forall i, rd z0 i = conv (rd (low k M)) (rd (low k N)) i) -> (forall i, rd z2 i = conv (rd (high k M)) (rd (high k N)) i) -> (forall i, rd xx i = conv (rd f1f0) (rd g1g0) i) ->
  rd z2 (i - 2 * k) + (rd xx (i - k) - rd z2 (i - k) - rd z0 (i - k)) + rd z0 i = conv (rd M) (rd N) i.
Proof.
  intros Hk F G H0 H2 HX. rewrite !H0, !H2, HX. symmetry.
  rewrite (conv_ext (rd M) (fun j => rd (low k M) j + shift k (rd (high k M)) j) (rd N) (fun j => rd (low k N) j + shift k (rd (high k N)) j)) by (intros; apply halves, Hk).
  rewrite karatsuba_identity; [|exact Hk|intros; apply rd_out; lia|intros; apply rd_out; lia].
  rewrite (conv_ext (rd f1f0) (fun j => rd (high k M) j + rd (low k M) j) (rd g1g0) (fun j => rd (high k N) j + rd (low k N) j)) by (intros; auto). reflexivity.
Qed.

Lemma rd_zeros_app n l i : 0 <= n -> rd (zeros n ++ l) i = rd l (i - n).
Proof. intros H. rewrite rd_app, zlen_zeros by exact H. destruct (Z.ltb_spec i n); [|reflexivity]. rewrite rd_zeros. symmetry. apply rd_out. lia. Qed.

Lemma karatsuba_ok : forall fuel M N, Z.max (zlen M) (zlen N) < Z.of_nat fuel -> karatsuba fuel M N = mul_classical M N.
Proof.
  induction fuel as [|fuel IH]; intros M N LF; [pose proof (zlen_nonneg M); lia|]. cbn [karatsuba]. change (len M) with (zlen M). change (len N) with (zlen N).
  destruct (Z.ltb_spec (zlen M) 30) as [LM|LM]; [reflexivity|]. destruct (Z.ltb_spec (zlen N) 30) as [LN|LN]; [reflexivity|]. cbn [orb].
  set (k := Z.max (zlen M) (zlen N) / 2). assert (Hk : 15 <= k) by (apply Z.div_le_lower_bound; lia). assert (K2 : 2 * k <= Z.max (zlen M) (zlen N) <= 2 * k + 1) by (unfold k; pose proof (Z.div_mod (Z.max (zlen M) (zlen N)) 2); pose proof (Z.mod_pos_bound (Z.max (zlen M) (zlen N)) 2); lia). clearbody k.
  assert (L0 : forall X, zlen (low k X) = Z.min k (zlen X)) by (intros X; apply zlen_firstn; lia). assert (L1 : forall X, zlen (high k X) = Z.max 0 (zlen X - k)) by (intros X; apply zlen_skipn; lia).
  rewrite !IH by (rewrite ?L0, ?L1; lia).
  destruct (mul_classical_ok (low k M) (low k N)) as (z0 & -> & E0 & R0). cbn [bind]. destruct (mul_classical_ok (high k M) (high k N)) as (z2 & -> & E2 & R2). cbn [bind].
  destruct (list_add_ok (high k M) (low k M)) as (f & -> & EF & RF). cbn [bind]. destruct (list_add_ok (high k N) (low k N)) as (g & -> & EG & RG). cbn [bind].
  rewrite IH by (rewrite EF, EG, !L0, !L1; lia). destruct (mul_classical_ok f g) as (xx & -> & EX & RX). cbn [bind].
  destruct (list_subtract_ok xx z2) as (d & -> & ED & RD). cbn [bind]. destruct (list_subtract_ok d z0) as (z1 & -> & E1 & R1). cbn [bind].
  destruct (list_add_ok (zeros (2 * k) ++ z2) (zeros k ++ z1)) as (s & -> & ES & RS). cbn [bind]. destruct (list_add_ok s z0) as (P & -> & EP & RP).
  destruct (mul_classical_ok M N) as (Q & -> & EQ & RQ). f_equal. rewrite !zlen_app, !zlen_zeros in ES by lia. rewrite !L0 in *. rewrite !L1 in *.
  apply rd_ext.
  - assert (E0' : zlen z0 = Z.min k (zlen M) + Z.min k (zlen N) - 1) by (rewrite E0; destruct (Z.eqb_spec (Z.min k (zlen M)) 0); [lia|]; destruct (Z.eqb_spec (Z.min k (zlen N)) 0); [lia|reflexivity]).
    assert (EX' : zlen xx = zlen f + zlen g - 1) by (rewrite EX; destruct (Z.eqb_spec (zlen f) 0); [lia|]; destruct (Z.eqb_spec (zlen g) 0); [lia|reflexivity]).
    assert (EQ' : zlen Q = zlen M + zlen N - 1) by (rewrite EQ; destruct (Z.eqb_spec (zlen M) 0); [lia|]; destruct (Z.eqb_spec (zlen N) 0); [lia|reflexivity]).
    assert (E2' : zlen z2 <= zlen M + zlen N - 1 - 2 * k \/ zlen z2 = 0) by (rewrite E2; destruct (Z.eqb_spec (Z.max 0 (zlen M - k)) 0); [right; reflexivity|]; destruct (Z.eqb_spec (Z.max 0 (zlen N - k)) 0); [right; reflexivity|left; cbn [orb]; lia]).
    assert (E2'' : k < zlen M -> k < zlen N -> zlen z2 = zlen M + zlen N - 1 - 2 * k) by (intros; rewrite E2; destruct (Z.eqb_spec (Z.max 0 (zlen M - k)) 0); [lia|]; destruct (Z.eqb_spec (Z.max 0 (zlen N - k)) 0); [lia|cbn [orb]; lia]).
    rewrite EP, ES, E1, ED, EQ'. clear E0 EX EQ E2 R0 R2 RX RD R1 RS RP RQ IH RF RG.
    assert (Xs : k + zlen xx <= zlen M + zlen N - 1) by (rewrite EX', EF, EG; clear - LM LN Hk K2; lia).
    assert (X1 : zlen M <= k \/ zlen N <= k -> k + zlen xx = zlen M + zlen N - 1) by (rewrite EX', EF, EG; clear - LM LN Hk K2; lia).
    assert (Y0 : k + zlen z0 <= zlen M + zlen N - 1) by (rewrite E0'; clear - LM LN Hk K2; lia).
    assert (Y2 : 2 * k + zlen z2 <= zlen M + zlen N - 1) by (clear - LM LN Hk K2 E2'; lia).
    assert (Y : k + zlen xx = zlen M + zlen N - 1 \/ 2 * k + zlen z2 = zlen M + zlen N - 1) by (destruct (Z.le_gt_cases (zlen M) k) as [A1|A1]; [left; auto|]; destruct (Z.le_gt_cases (zlen N) k) as [A2|A2]; [left; auto|]; right; rewrite E2'' by assumption; lia).
    clear - Hk Xs Y0 Y2 Y. pose proof (zlen_nonneg xx). pose proof (zlen_nonneg z2). pose proof (zlen_nonneg z0). lia.
  - intros i _. rewrite RP, RS, !rd_zeros_app, R1, RD, RQ by lia. apply (karatsuba_combine k M N z0 z2 xx f g); try assumption. lia.
Qed.
