(** * Power series: Karatsuba with padding, powers, inverses *)
From Coq Require Import ZArith List Lia Bool.
From Verif Require Import Base Py Lists Sums Poly_Spec Poly_Model Poly_Proofs.
Import ListNotations.
Open Scope Z_scope.

Lemma rd_cons a A i : rd (a :: A) i = if i =? 0 then a else rd A (i - 1).
Proof.
  unfold rd. destruct (Z.eqb_spec i 0) as [->|D]; [reflexivity|]. destruct (Z.ltb_spec i 0), (Z.ltb_spec (i - 1) 0); try lia.
  replace (Z.to_nat i) with (S (Z.to_nat (i - 1))) by lia. reflexivity.
Qed.
Lemma rd_nil i : rd [] i = 0. Proof. apply rd_out. cbn. lia. Qed.

Lemma zip_with_rd h : h 0 0 = 0 -> forall A B i, rd (zip_with h A B) i = h (rd A i) (rd B i).
Proof.
  intros H. induction A as [|a A IH]; intros B i; cbn [zip_with].
  - rewrite rd_map by exact H. rewrite rd_nil. reflexivity.
  - destruct B as [|b B]; rewrite !rd_cons, IH, ?rd_nil; destruct (i =? 0); reflexivity.
Qed.
Lemma zip_with_len h : forall A B, zlen (zip_with h A B) = Z.max (zlen A) (zlen B).
Proof.
  assert (C : forall a A, zlen (a :: A) = 1 + zlen A) by (intros; unfold zlen; cbn [length]; lia). induction A as [|a A IH]; intros B; cbn [zip_with].
  - rewrite zlen_map. pose proof (zlen_nonneg B). change (zlen []) with 0. lia.
  - destruct B as [|b B]; rewrite !C, IH; [change (zlen []) with 0; pose proof (zlen_nonneg A)|]; lia.
Qed.

Lemma ps_karatsuba_ok kthresh : 2 <= kthresh -> forall fuel M N, Z.max (zlen M) (zlen N) < Z.of_nat fuel ->
  exists P, ps_karatsuba fuel kthresh M N = Ret P /\ forall i, rd P i = conv (rd M) (rd N) i.
Proof.
  intros Hth. induction fuel as [|fuel IH]; intros M N LF; [pose proof (zlen_nonneg M); lia|]. cbn [ps_karatsuba]. change (len M) with (zlen M). change (len N) with (zlen N).
  assert (Cl : exists P, ps_mult_classical M N = Ret P /\ forall i, rd P i = conv (rd M) (rd N) i) by (destruct (mul_loop_ok M N) as (P & E & _ & R); exists P; split; assumption).
  destruct (Z.ltb_spec (zlen M) kthresh) as [LM|LM]; [exact Cl|]. destruct (Z.ltb_spec (zlen N) kthresh) as [LN|LN]; [exact Cl|]. cbn [orb].
  set (k := Z.max (zlen M) (zlen N) / 2). assert (Hk : 1 <= k) by (apply Z.div_le_lower_bound; lia). assert (K2 : 2 * k <= Z.max (zlen M) (zlen N) <= 2 * k + 1) by (unfold k; pose proof (Z.div_mod (Z.max (zlen M) (zlen N)) 2); pose proof (Z.mod_pos_bound (Z.max (zlen M) (zlen N)) 2); lia). clearbody k.
  assert (L0 : forall X, zlen (low k X) = Z.min k (zlen X)) by (intros X; apply zlen_firstn; lia). assert (L1 : forall X, zlen (high k X) = Z.max 0 (zlen X - k)) by (intros X; apply zlen_skipn; lia).
  destruct (IH (low k M) (low k N)) as (z0 & -> & R0); [rewrite !L0; lia|]. destruct (IH (high k M) (high k N)) as (z2 & -> & R2); [rewrite !L1; lia|]. cbn [bind].
  destruct (IH (zip_with Z.add (high k M) (low k M)) (zip_with Z.add (high k N) (low k N))) as (xx & -> & RX); [rewrite !zip_with_len, !L1, !L0; lia|]. cbn [bind].
  eexists. split; [reflexivity|]. intros i. rewrite !zip_with_rd, !rd_zeros_app, !zip_with_rd by (reflexivity || lia).
  apply (karatsuba_combine k M N z0 z2 xx (zip_with Z.add (high k M) (low k M)) (zip_with Z.add (high k N) (low k N))); try assumption; try lia; intros j; apply zip_with_rd; reflexivity.
Qed.

(** With the threshold 1 (or less) the recursion does not end. *)
Lemma ps_karatsuba_loops kthresh a b : kthresh <= 1 -> forall fuel, ps_karatsuba fuel kthresh [a] [b] = Diverge.
Proof.
  intros H. induction fuel as [|fuel IH]; [reflexivity|]. cbn [ps_karatsuba]. change (len [a]) with 1. change (len [b]) with 1. destruct (Z.ltb_spec 1 kthresh); [lia|]. cbn [orb].
  replace (Z.max 1 1 / 2) with 0 by reflexivity. change (low 0 [a]) with (@nil Z). change (low 0 [b]) with (@nil Z). change (high 0 [a]) with [a]. change (high 0 [b]) with [b]. rewrite IH.
  destruct (ps_karatsuba fuel kthresh [] []) as [x|e|] eqn:E; cbn [bind]; try reflexivity.
  exfalso. revert e E. clear IH. revert H. clear. intros H. induction fuel as [|fuel IH]; intros e; cbn [ps_karatsuba]; [discriminate|]. change (len []) with 0.
  destruct (Z.ltb_spec 0 kthresh); cbn [orb]; [discriminate|]. replace (Z.max 0 0 / 2) with 0 by reflexivity. change (low 0 []) with (@nil Z). change (high 0 []) with (@nil Z).
  destruct (ps_karatsuba fuel kthresh [] []) as [x|e'|] eqn:E; cbn [bind]; [|intros [= ->]; exact (IH e eq_refl)|discriminate]. cbn [zip_with map]. rewrite E. cbn [bind]. discriminate.
Qed.

(** ** Powers *)
Definition theta (f : Z -> Z) (i : Z) : Z := i * f i.
Lemma theta_conv f g i : theta (conv f g) i = conv (theta f) g i + conv f (theta g) i.
Proof. unfold theta. rewrite !conv_Sum, <- Sum_plus, <- Sum_mul. apply Sum_ext. intros j _. ring. Qed.

Lemma conv_swap f g h i : conv f (conv g h) i = conv g (conv f h) i.
Proof. rewrite <- !conv_assoc. apply conv_ext; [intros; apply conv_comm|reflexivity]. Qed.

Lemma theta_pow f k i : conv f (theta (cpow f k)) i = Z.of_nat k * conv (theta f) (cpow f k) i.
Proof.
  revert i. induction k as [|k IH]; intros i.
  - rewrite conv_comm, conv_zero_l; [cbn [Z.of_nat]; ring|]. intros j. unfold theta. cbn [cpow]. unfold unit_series. destruct (Z.eqb_spec j 0); lia.
  - cbn [cpow]. rewrite (conv_ext f f _ (fun j => Z.of_nat (S k) * conv (theta f) (cpow f k) j)); [|reflexivity|intros j _; rewrite theta_conv, IH; lia].
    rewrite conv_mul_r. f_equal. apply conv_swap.
Qed.

Lemma pow_recurrence f k i : 1 <= i ->
  i * f 0 * cpow f k i = Sum 1 (i + 1) (fun j => f j * ((Z.of_nat k + 1) * j - i) * cpow f k (i - j)).
Proof.
  intros Hi. pose proof (theta_pow f k i) as H. rewrite !conv_Sum in H. rewrite !(Sum_first 0) in H by lia. unfold theta in H. cbn [Z.add] in H. rewrite Z.sub_0_r in H.
  rewrite (Sum_ext 1 (i + 1) (fun j => f j * ((Z.of_nat k + 1) * j - i) * cpow f k (i - j)) (fun j => Z.of_nat k * (j * f j * cpow f k (i - j)) - f j * ((i - j) * cpow f k (i - j)))) by (intros j _; ring).
  rewrite Sum_minus, Sum_mul. lia.
Qed.

Lemma cpow_neg f k i : i < 0 -> cpow f k i = 0.
Proof. intros H. destruct k; cbn [cpow]; [|apply conv_neg, H]. unfold unit_series. destruct (Z.eqb_spec i 0); lia. Qed.
Lemma cpow_0 f k : cpow f k 0 = f 0 ^ Z.of_nat k.
Proof.
  induction k as [|k IH]; [reflexivity|]. cbn [cpow]. rewrite conv_Sum, (Sum_one 0). rewrite Z.sub_0_r, IH, Nat2Z.inj_succ, Z.pow_succ_r by lia. reflexivity.
Qed.
Lemma conv_top f g a b i : (forall j, a < j -> f j = 0) -> (forall j, b < j -> g j = 0) -> a + b < i -> conv f g i = 0.
Proof.
  intros Hf Hg L. rewrite conv_Sum. apply Sum_zero. intros j _. destruct (Z.lt_ge_cases a j); [rewrite Hf by assumption; lia|]. rewrite (Hg (i - j)) by lia. lia.
Qed.
Lemma cpow_top f k a : (forall j, a < j -> f j = 0) -> forall i, a * Z.of_nat k < i -> cpow f k i = 0.
Proof.
  intros Hf. induction k as [|k IH]; intros i L.
  - cbn [cpow]. unfold unit_series. destruct (Z.eqb_spec i 0); lia.
  - cbn [cpow]. apply (conv_top f _ a (a * Z.of_nat k)); [exact Hf|exact IH|lia].
Qed.
Lemma cpow_ext f g k : (forall i, f i = g i) -> forall i, cpow f k i = cpow g k i.
Proof. intros H. induction k as [|k IH]; intros i; [reflexivity|]. cbn [cpow]. apply conv_ext; intros; auto. Qed.
Lemma cpow_shift s f k i : 0 <= s -> (forall j, j < 0 -> f j = 0) -> cpow (shift s f) k i = cpow f k (i - s * Z.of_nat k).
Proof.
  intros Hs Hf. revert i. induction k as [|k IH]; intros i.
  - cbn [cpow]. f_equal. lia.
  - cbn [cpow]. rewrite conv_shift by assumption. rewrite (conv_ext f f _ (shift (s * Z.of_nat k) (cpow f k))) by (intros; try apply IH; reflexivity).
    rewrite conv_comm, conv_shift, conv_comm by (try lia; intros; apply cpow_neg; assumption). f_equal. lia.
Qed.

(** The inner loop. *)
Lemma power_inner B P k i top : 1 <= i -> 0 <= top <= zlen B -> top <= i + 1 -> i < zlen P -> 
  foldM (fun ss j => do b <- pyget B j; do p <- pyget P (i - j); Ret (ss + b * ((k + 1) * j - i) * p)) (zrange 1 top) 0
  = Ret (Sum 1 top (fun j => rd B j * ((k + 1) * j - i) * rd P (i - j))).
Proof.
  intros Hi Ht Hti HP. destruct (Z.le_gt_cases top 1) as [L|L]; [rewrite zrange_nil, Sum_nil by exact L; reflexivity|].
  destruct (foldM_range (fun ss j => do b <- pyget B j; do p <- pyget P (i - j); Ret (ss + b * ((k + 1) * j - i) * p))
    (fun x ss => ss = Sum 1 x (fun j => rd B j * ((k + 1) * j - i) * rd P (i - j))) 1 top 0 ltac:(lia)) as (ss & E & R).
  - rewrite Sum_nil by lia. reflexivity.
  - intros x ss Hx ->. rewrite !rd_get by lia. cbn [bind]. eexists. split; [reflexivity|]. rewrite Sum_last by lia. reflexivity.
  - rewrite E, R. reflexivity.
Qed.

(** One round of the recurrence: P[t] = p_t for t < i gives P[i] = p_i. *)
Lemma power_step B k i top P : rd B 0 <> 0 -> 0 <= k -> 1 <= i < zlen P -> top = Z.min (zlen B) (i + 1) -> (forall t, t < i -> rd P t = cpow (rd B) (Z.to_nat k) t) ->
  exists P', (do ss <- foldM (fun ss j => do b <- pyget B j; do p <- pyget P (i - j); Ret (ss + b * ((k + 1) * j - i) * p)) (zrange 1 top) 0;
              do v <- pydiv ss (i * rd B 0); pyset P i v) = Ret P' /\ zlen P' = zlen P /\ forall t, rd P' t = if t =? i then cpow (rd B) (Z.to_nat k) i else rd P t.
Proof.
  intros Ha Hk Hi -> HP. rewrite power_inner by (pose proof (zlen_nonneg B); lia). cbn [bind].
  assert (B1 : 0 < zlen B). { pose proof (zlen_nonneg B). destruct (Z.eq_dec (zlen B) 0) as [E|]; [|lia]. exfalso. apply Ha, rd_out. lia. }
  assert (E : Sum 1 (Z.min (zlen B) (i + 1)) (fun j => rd B j * ((k + 1) * j - i) * rd P (i - j)) = cpow (rd B) (Z.to_nat k) i * (i * rd B 0)).
  { pose proof (pow_recurrence (rd B) (Z.to_nat k) i ltac:(lia)) as R. rewrite Z2Nat.id in R by exact Hk. rewrite (Z.mul_comm _ (i * rd B 0)), R. symmetry.
    rewrite (Sum_extend 1 (Z.min (zlen B) (i + 1)) (i + 1)); [|lia|intros j Hj; rewrite (rd_out B j) by lia; lia]. apply Sum_ext. intros j Hj. rewrite HP by lia. reflexivity. }
  rewrite E. unfold pydiv. destruct (Z.eqb_spec (i * rd B 0) 0) as [D|D]; [nia|]. cbn [bind]. rewrite Z.div_mul by exact D. apply rd_set. lia.
Qed.

Lemma power_start B k n : 1 <= zlen B -> 1 <= n -> 0 <= k -> exists P, (do a0k <- int_pow (rd B 0) k; pyset (zeros n) 0 a0k) = Ret P /\ zlen P = n /\
  forall t, t < 1 -> rd P t = cpow (rd B) (Z.to_nat k) t.
Proof.
  intros HB Hn Hk. unfold int_pow. destruct (Z.leb_spec 0 k); [|lia]. cbn [bind]. destruct (rd_set (zeros n) 0 (rd B 0 ^ k)) as (P & E & L & R); [rewrite zlen_zeros; lia|].
  exists P. split; [exact E|]. rewrite zlen_zeros in L by lia. split; [exact L|]. intros t Ht. rewrite R. destruct (Z.eqb_spec t 0) as [->|D].
  - rewrite cpow_0, Z2Nat.id by exact Hk. reflexivity.
  - rewrite rd_zeros. symmetry. apply cpow_neg. lia.
Qed.

Lemma power_rounds_ok B k top P : rd B 0 <> 0 -> 0 <= k -> 1 <= top -> zlen P = top -> (forall t, t < 1 -> rd P t = cpow (rd B) (Z.to_nat k) t) ->
  exists P', power_rounds B (rd B 0) k top P = Ret P' /\ zlen P' = top /\ forall t, t < top -> rd P' t = cpow (rd B) (Z.to_nat k) t.
Proof.
  intros Ha Hk Ht HL H0. unfold power_rounds.
  match goal with |- context [foldM ?F _ _] => destruct (foldM_range F (fun x Q => zlen Q = top /\ forall t, t < x -> rd Q t = cpow (rd B) (Z.to_nat k) t) 1 top P Ht) as (Q & E & LQ & RQ) end.
  - split; [exact HL|exact H0].
  - intros x Q Hx (LQ & RQ). destruct (power_step B k x (Z.min (zlen B) (x + 1)) Q Ha Hk ltac:(lia) eq_refl RQ) as (Q' & E & L' & R'). exists Q'. split; [exact E|]. split; [lia|].
    intros t Ht'. rewrite R'. destruct (Z.eqb_spec t x) as [->|D]; [reflexivity|]. apply RQ. lia.
  - exists Q. split; [exact E|]. split; [exact LQ|exact RQ].
Qed.

Lemma ps_power_ok A k : rd A 0 <> 0 -> 0 <= k -> exists P, ps_power A k = Ret P /\ zlen P = zlen A /\ forall t, t < zlen A -> rd P t = cpow (rd A) (Z.to_nat k) t.
Proof.
  intros Ha Hk. assert (B1 : 1 <= zlen A). { pose proof (zlen_nonneg A). destruct (Z.eq_dec (zlen A) 0) as [E|]; [|lia]. exfalso. apply Ha, rd_out. lia. }
  unfold ps_power. change (len A) with (zlen A). rewrite rd_get by lia. cbn [bind]. destruct (power_start A k (zlen A) B1 B1 Hk) as (P & E & LP & RP).
  destruct (int_pow (rd A 0) k) as [v| |]; cbn [bind] in E |- *; [|discriminate|discriminate]. rewrite E. cbn [bind].
  match goal with |- context [foldM ?F _ _] => destruct (foldM_range F (fun x Q => zlen Q = zlen A /\ forall t, t < x -> rd Q t = cpow (rd A) (Z.to_nat k) t) 1 (zlen A) P B1) as (Q & EQ & LQ & RQ) end.
  - split; [exact LP|exact RP].
  - intros x Q Hx (LQ & RQ). destruct (power_step A k x (x + 1) Q Ha Hk ltac:(lia) ltac:(lia) RQ) as (Q' & EQ & L' & R'). exists Q'. split; [exact EQ|]. split; [lia|].
    intros t Ht'. rewrite R'. destruct (Z.eqb_spec t x) as [->|D]; [reflexivity|]. apply RQ. lia.
  - exists Q. split; [exact EQ|]. split; [exact LQ|exact RQ].
Qed.

Lemma first_nonzero_ok A : (forall i, rd A i = 0) /\ first_nonzero A = Raise IndexError \/
  exists s, first_nonzero A = Ret s /\ 0 <= s < zlen A /\ rd A s <> 0 /\ forall i, i < s -> rd A i = 0.
Proof.
  induction A as [|a A IH].
  - left. split; [apply rd_nil|reflexivity].
  - cbn [first_nonzero]. assert (C : zlen (a :: A) = 1 + zlen A) by (unfold zlen; cbn [length]; lia). pose proof (zlen_nonneg A). destruct (Z.eqb_spec a 0) as [->|D].
    + destruct IH as [(Z0 & E)|(s & E & Hs & N & Z0)].
      * left. rewrite E. split; [|reflexivity]. intros i. rewrite rd_cons, Z0. destruct (i =? 0); reflexivity.
      * right. exists (1 + s). rewrite E. split; [reflexivity|]. split; [lia|]. rewrite rd_cons. destruct (Z.eqb_spec (1 + s) 0); [lia|]. replace (1 + s - 1) with s by lia. split; [exact N|].
        intros i Hi. rewrite rd_cons. destruct (Z.eqb_spec i 0); [reflexivity|]. apply Z0. lia.
    + right. exists 0. split; [reflexivity|]. split; [lia|]. rewrite rd_cons. split; [exact D|]. intros i Hi. apply rd_out. lia.
Qed.

Lemma power_jcp_ok A k : (exists i, rd A i <> 0) -> 0 <= k -> exists P, power_jcp A k = Ret P /\ forall t, rd P t = cpow (rd A) (Z.to_nat k) t.
Proof.
  intros (i0 & Hi0) Hk. unfold power_jcp. destruct (first_nonzero_ok A) as [(Z0 & _)|(s & E & Hs & N & Z0)]; [exfalso; apply Hi0, Z0|]. rewrite E. cbn [bind].
  set (B := skipn (Z.to_nat s) A). change (len B) with (zlen B). assert (LB : zlen B = zlen A - s) by (unfold B; rewrite zlen_skipn; lia).
  assert (RB : forall t, rd A t = shift s (rd B) t).
  { intros t. unfold shift. destruct (Z.lt_ge_cases t s); [rewrite Z0 by assumption; symmetry; apply rd_out; lia|]. unfold B. rewrite rd_skipn by lia. f_equal. lia. }
  assert (B0 : rd B 0 <> 0) by (unfold B; rewrite rd_skipn by lia; exact N).
  rewrite rd_get by lia. cbn [bind]. assert (T1 : 1 <= (zlen B - 1) * k + 1) by nia. destruct (power_start B k ((zlen B - 1) * k + 1) ltac:(lia) T1 Hk) as (P & EP & LP & RP).
  destruct (int_pow (rd B 0) k) as [v| |]; cbn [bind] in EP |- *; [|discriminate|discriminate]. rewrite EP. cbn [bind].
  destruct (power_rounds_ok B k ((zlen B - 1) * k + 1) P B0 Hk T1 LP RP) as (Q & EQ & LQ & RQ). rewrite EQ. cbn [bind]. eexists. split; [reflexivity|].
  intros t. rewrite rd_zeros_app by nia. rewrite (cpow_ext (rd A) (shift s (rd B))) by exact RB. rewrite cpow_shift by (try lia; intros; apply rd_out; lia). rewrite Z2Nat.id by exact Hk.
  destruct (Z.lt_ge_cases (t - s * k) ((zlen B - 1) * k + 1)) as [L|L]; [apply RQ, L|]. rewrite rd_out by lia. symmetry. apply (cpow_top _ _ (zlen B - 1)); [intros j Hj; apply rd_out; lia|]. rewrite Z2Nat.id by exact Hk. lia.
Qed.

(** ** Inverses *)
Lemma ps_invert_ok A : rd A 0 = 1 \/ rd A 0 = -1 -> exists B, ps_invert A = Ret B /\ zlen B = zlen A /\ forall t, t < zlen A -> conv (rd A) (rd B) t = unit_series t.
Proof.
  intros Ha. assert (B1 : 1 <= zlen A). { pose proof (zlen_nonneg A). destruct (Z.eq_dec (zlen A) 0) as [E|]; [|lia]. exfalso. rewrite (rd_out A 0) in Ha by lia. lia. }
  assert (Dv : forall x, pydiv x (rd A 0) = Ret (x * rd A 0)).
  { intros x. unfold pydiv. destruct (Z.eqb_spec (rd A 0) 0); [lia|]. f_equal. destruct Ha as [-> | ->]; [rewrite Z.div_1_r; lia|]. replace x with (- x * -1) at 1 by lia. rewrite Z.div_mul by lia. lia. }
  assert (Sq : rd A 0 * rd A 0 = 1) by (destruct Ha as [-> | ->]; reflexivity).
  unfold ps_invert. change (len A) with (zlen A). rewrite rd_get by lia. cbn [bind]. rewrite Dv. cbn [bind].
  destruct (rd_set (zeros (zlen A)) 0 (1 * rd A 0)) as (B & E & LB & RB); [rewrite zlen_zeros; lia|]. rewrite E. cbn [bind]. rewrite zlen_zeros in LB by lia.
  match goal with |- context [foldM ?F _ _] => destruct (foldM_range F (fun x Q => zlen Q = zlen A /\ (forall t, x <= t -> rd Q t = 0) /\ forall t, t < x -> conv (rd A) (rd Q) t = unit_series t) 1 (zlen A) B B1) as (Q & EQ & LQ & _ & RQ) end.
  - split; [exact LB|]. split; [intros t Ht; rewrite RB, rd_zeros; destruct (Z.eqb_spec t 0); lia|]. intros t Ht. destruct (Z.eq_dec t 0) as [->|D].
    + rewrite conv_Sum, (Sum_one 0), Z.sub_0_r, RB. unfold unit_series. rewrite Z.eqb_refl, Z.mul_1_l. exact Sq.
    + rewrite conv_neg by lia. unfold unit_series. destruct (Z.eqb_spec t 0); lia.
  - intros x Q Hx (LQ & HZ & RQ).
    destruct (foldM_range (fun ss i => do a <- pyget A i; do b <- pyget Q (x - i); Ret (ss + a * b)) (fun y ss => ss = Sum 0 y (fun j => rd A j * rd Q (x - j))) 0 (x + 1) 0 ltac:(lia)) as (ss & ES & RS).
    + rewrite Sum_nil by lia. reflexivity.
    + intros y ss Hy ->. rewrite !rd_get by lia. cbn [bind]. eexists. split; [reflexivity|]. rewrite Sum_last by lia. reflexivity.
    + rewrite ES. cbn [bind]. rewrite Dv. cbn [bind]. destruct (rd_set Q x (- ss * rd A 0)) as (Q' & E' & L' & R'); [lia|]. exists Q'. split; [exact E'|]. split; [lia|]. split.
      * intros t Ht. rewrite R'. destruct (Z.eqb_spec t x); [lia|]. apply HZ. lia.
      * intros t Ht. destruct (Z.eq_dec t x) as [->|D].
        -- rewrite conv_Sum, Sum_first by lia. rewrite Z.sub_0_r, R', Z.eqb_refl. rewrite (Sum_ext _ _ _ (fun j => rd A j * rd Q (x - j))); [|intros j Hj; rewrite R'; destruct (Z.eqb_spec (x - j) x); [lia|reflexivity]].
           rewrite Sum_first in RS by lia. rewrite Z.sub_0_r, (HZ x) in RS by lia. unfold unit_series. destruct (Z.eqb_spec x 0); [lia|]. rewrite Z.mul_0_r, Z.add_0_l in RS. cbn [Z.add] in RS |- *. rewrite <- RS.
           transitivity (- ss * (rd A 0 * rd A 0) + ss); [ring|rewrite Sq; lia].
        -- rewrite <- (RQ t) by lia. apply conv_ext; [reflexivity|]. intros j Hj. rewrite R'. destruct (Z.eqb_spec j x); [lia|reflexivity].
  - exists Q. split; [exact EQ|]. split; [exact LQ|]. exact RQ.
Qed.
