(** * Division of polynomials *)
From Coq Require Import ZArith List Lia Bool.
From Verif Require Import Base Py Lists Sums Poly_Spec Poly_Model Poly_Proofs Poly_Proofs2 Poly_Proofs3.
Import ListNotations.
Open Scope Z_scope.

(** ** pseudo_quo_rem *)
Lemma pqr_inner_ok v n k u : 0 <= n -> zlen v = n + 1 -> 0 <= k -> n + k < zlen u ->
  exists u', pqr_inner v n k u = Ret u' /\ zlen u' = zlen u /\ forall t, rd u' t = if (0 <=? t) && (t <? n + k) then rd v n * rd u t - rd u (n + k) * rd v (t - k) else rd u t.
Proof.
  intros Hn Lv Hk Lu. unfold pqr_inner.
  match goal with |- context [foldM ?F _ _] => destruct (foldM_range_down F (fun x w => zlen w = zlen u /\ forall t, rd w t = if (x <=? t) && (t <? n + k) then rd v n * rd u t - rd u (n + k) * rd v (t - k) else rd u t) 0 (n + k) u ltac:(lia)) as (w & E & L & R) end.
  - split; [reflexivity|]. intros t. destruct (Z.leb_spec (n + k) t), (Z.ltb_spec t (n + k)); try lia; reflexivity.
  - intros x w Hx (L & R). rewrite (rd_get v n) by lia. cbn [bind]. rewrite (rd_get w x) by lia. cbn [bind].
    assert (Rx : rd w x = rd u x) by (rewrite R; destruct (Z.leb_spec (x + 1) x); [lia|reflexivity]).
    assert (Rt : rd w (n + k) = rd u (n + k)) by (rewrite R; destruct (Z.ltb_spec (n + k) (n + k)); [lia|rewrite andb_false_r; reflexivity]).
    assert (G : exists w', (if x <? k then pyset w x (rd v n * rd w x) else do t <- pyget w (n + k); do y <- pyget v (x - k); pyset w x (rd v n * rd w x - t * y)) = Ret w' /\ zlen w' = zlen w /\
      forall t, rd w' t = if t =? x then rd v n * rd u x - rd u (n + k) * rd v (x - k) else rd w t).
    { destruct (Z.ltb_spec x k) as [Lk|Lk].
      - destruct (rd_set w x (rd v n * rd w x)) as (w' & E' & L' & R'); [lia|]. exists w'. split; [exact E'|]. split; [exact L'|]. intros t. rewrite R'. destruct (t =? x); [|reflexivity]. rewrite Rx, (rd_neg v (x - k)) by lia. lia.
      - rewrite (rd_get w (n + k)) by lia. cbn [bind]. rewrite (rd_get v (x - k)) by lia. cbn [bind]. destruct (rd_set w x (rd v n * rd w x - rd w (n + k) * rd v (x - k))) as (w' & E' & L' & R'); [lia|].
        exists w'. split; [exact E'|]. split; [exact L'|]. intros t. rewrite R'. destruct (t =? x); [|reflexivity]. rewrite Rx, Rt. reflexivity. }
    destruct G as (w' & E' & L' & R'). exists w'. split; [exact E'|]. split; [lia|]. intros t. rewrite R', R.
    destruct (Z.eqb_spec t x), (Z.leb_spec x t), (Z.leb_spec (x + 1) t), (Z.ltb_spec t (n + k)); subst; cbn [andb]; try lia; reflexivity.
  - exists w. split; [exact E|]. split; [exact L|exact R].
Qed.

Lemma pseudo_quo_rem_ok u v : u <> [] -> v <> [] ->
  let m := zlen u - 1 in let n := zlen v - 1 in
  m < n /\ pseudo_quo_rem u v = Ret ([0], u) \/
  n <= m /\ exists q r, pseudo_quo_rem u v = Ret (q, r) /\ normal q /\ normal r /\ (forall t, n <= t -> rd r t = 0) /\
    forall t, rd v n ^ (m - n + 1) * rd u t = conv (rd q) (rd v) t + rd r t.
Proof.
  intros Nu Nv m n. unfold pseudo_quo_rem. change (len u) with (zlen u). change (len v) with (zlen v). fold m n. destruct (Z.ltb_spec m n) as [L|L]; [left; split; [exact L|reflexivity]|right; split; [exact L|]].
  assert (Hn : 0 <= n) by (unfold n, zlen; destruct v; [congruence|cbn [length]; lia]). assert (Lv : zlen v = n + 1) by (unfold n; lia). assert (Lu : zlen u = m + 1) by (unfold m; lia). clearbody m n. set (l := rd v n). set (K := m - n + 1).
  match goal with |- context [foldM ?F _ _] => destruct (foldM_range_down F (fun c '(q, w) => zlen q = K /\ zlen w = m + 1 /\
      forall t, l ^ K * rd u t = l ^ c * (if t <? n + c then rd w t else 0) + Sum c K (fun j => rd q j * rd v (t - j))) 0 K (zeros K, u) ltac:(lia)) as ((q & w) & E & Lq & Lw & R) end.
  - split; [apply zlen_zeros; unfold K; lia|]. split; [exact Lu|]. intros t. rewrite (Sum_nil K K) by lia. destruct (Z.ltb_spec t (n + K)); [lia|]. rewrite (rd_top u t) by (unfold K in *; lia). lia.
  - intros c (q & w) Hc (Lq & Lw & R). rewrite (rd_get w (n + c)) by (unfold K in *; lia). cbn [bind]. rewrite (rd_get v n) by lia. cbn [bind]. fold l.
    destruct (rd_set q c (rd w (n + c) * l ^ c)) as (q' & -> & Lq' & Rq'); [lia|]. cbn [bind]. destruct (pqr_inner_ok v n c w Hn Lv ltac:(lia) ltac:(unfold K in *; lia)) as (w' & -> & Lw' & Rw'). cbn [bind].
    eexists. split; [reflexivity|]. split; [lia|]. split; [lia|]. intros t. rewrite R, (Sum_first c K) by lia. rewrite Rq', Z.eqb_refl.
    rewrite (Sum_ext (c + 1) K (fun j => rd q' j * rd v (t - j)) (fun j => rd q j * rd v (t - j))) by (intros j Hj; rewrite Rq'; destruct (Z.eqb_spec j c); [lia|reflexivity]).
    generalize (Sum (c + 1) K (fun j => rd q j * rd v (t - j))). intros S0. rewrite Z.pow_add_r, Z.pow_1_r by lia. rewrite Rw'. fold l.
    destruct (Z.ltb_spec t (n + (c + 1))) as [T1|T1], (Z.ltb_spec t (n + c)) as [T2|T2], (Z.leb_spec 0 t) as [T0|T0]; cbn [andb]; try lia.
    + rewrite (rd_neg w t), (rd_neg v (t - c)) by lia. ring.
    + replace t with (n + c) by lia. replace (n + c - c) with n by lia. fold l. ring.
    + rewrite (rd_top v (t - c)) by lia. ring.
  - rewrite E. cbn [bind]. destruct (polynomial_ok q) as (Nq & Rq). destruct (polynomial_ok (low n w)) as (Nr & Rr). exists (polynomial q), (polynomial (low n w)). split; [reflexivity|]. split; [exact Nq|]. split; [exact Nr|].
    assert (Rl : forall t, rd (polynomial (low n w)) t = if t <? n then rd w t else 0) by (intros t; rewrite Rr; apply rd_firstn; exact Hn).
    split; [intros t Ht; rewrite Rl; destruct (Z.ltb_spec t n); [lia|reflexivity]|]. intros t. rewrite R, Rl, Z.pow_0_r, Z.add_0_r, Z.mul_1_l, Z.add_comm. f_equal.
    rewrite (conv_ext _ (rd q) _ (rd v)) by (intros; try apply Rq; reflexivity). symmetry. apply conv_finite; [unfold K; lia|intros; apply rd_top; lia|intros; apply rd_neg; lia].
Qed.

(** ** quo_rem *)
Section QuoRem.
  Context (a b : list Z).
  Let k := zlen a.
  Let l := zlen b.
  Hypothesis Hl : 1 <= l <= k.
  Let lc := rd b (l - 1).
  Hypothesis Hlc : lc <> 0.
  Let K := k - l + 1.

  Definition qr_step : list Z * list Z -> Z -> outcome (list Z * list Z) := fun '(q, r) i =>
    do x <- pyget r (i + l - 1);
    do d <- pydiv x lc;
    do q <- pyset q i d;
    do r <- foldM (fun r j => do qi <- pyget q i; do bj <- pyget b j; add_at r (i + j) (- (qi * bj))) (zrange 0 l) r;
    Ret (q, r).

  Lemma qr_step_ok q r i : zlen q = K -> zlen r = k -> 0 <= i < K ->
    exists q' r', qr_step (q, r) i = Ret (q', r') /\ zlen q' = K /\ zlen r' = k /\
      (forall j, rd q' j = if j =? i then rd r (i + l - 1) / lc else rd q j) /\ forall t, rd r' t = rd r t - rd r (i + l - 1) / lc * rd b (t - i).
  Proof using Hl Hlc.
    intros Lq Lr Hi. unfold qr_step. unfold K in *. rewrite rd_get by lia. cbn [bind]. unfold pydiv. destruct (Z.eqb_spec lc 0) as [D|D]; [congruence|]. cbn [bind]. set (d := rd r (i + l - 1) / lc).
    destruct (rd_set q i d) as (q' & -> & Lq' & Rq'); [lia|]. cbn [bind].
    match goal with |- context [foldM ?F _ _] => destruct (foldM_range F (fun y w => zlen w = k /\ forall t, rd w t = rd r t - (if t - i <? y then d * rd b (t - i) else 0)) 0 l r ltac:(lia)) as (w & E & Lw & Rw) end.
    - split; [exact Lr|]. intros t. destruct (Z.ltb_spec (t - i) 0); [rewrite (rd_neg b) by lia; lia|lia].
    - intros y w Hy (Lw & Rw). rewrite (rd_get q' i) by lia. cbn [bind]. rewrite (rd_get b y) by (fold l; lia). cbn [bind]. rewrite Rq', Z.eqb_refl. destruct (add_at_ok w (i + y) (- (d * rd b y))) as (w' & E' & L' & R'); [lia|].
      exists w'. split; [exact E'|]. split; [lia|]. intros t. rewrite R', Rw. destruct (Z.eqb_spec t (i + y)), (Z.ltb_spec (t - i) y), (Z.ltb_spec (t - i) (y + 1)); subst; try lia. replace (i + y - i) with y by lia. lia.
    - rewrite E. cbn [bind]. exists q', w. split; [reflexivity|]. split; [lia|]. split; [exact Lw|]. split; [exact Rq'|]. intros t. rewrite Rw. destruct (Z.ltb_spec (t - i) l); [reflexivity|]. rewrite (rd_top b (t - i)) by (fold l; lia). lia.
  Qed.

  (** The loop, with an additional invariant. *)
  Lemma qr_loop (J : Z -> list Z -> list Z -> Prop) : J K (zeros K) a ->
    (forall c q r q' r', 0 <= c < K -> zlen r = k -> (forall t, rd a t = rd r t + Sum (c + 1) K (fun j => rd q j * rd b (t - j))) -> J (c + 1) q r ->
       (forall j, rd q' j = if j =? c then rd r (c + l - 1) / lc else rd q j) -> (forall t, rd r' t = rd r t - rd r (c + l - 1) / lc * rd b (t - c)) -> J c q' r') ->
    exists q r, foldM qr_step (rev (zrange 0 K)) (zeros K, a) = Ret (q, r) /\ zlen q = K /\ (forall t, rd a t = rd r t + conv (rd q) (rd b) t) /\ J 0 q r.
  Proof using Hl Hlc.
    intros J0 JS. destruct (foldM_range_down qr_step (fun c '(q, r) => zlen q = K /\ zlen r = k /\ (forall t, rd a t = rd r t + Sum c K (fun j => rd q j * rd b (t - j))) /\ J c q r) 0 K (zeros K, a) ltac:(unfold K; lia)) as ((q & r) & E & Lq & Lr & R & HJ).
    - split; [apply zlen_zeros; unfold K; lia|]. split; [reflexivity|]. split; [|exact J0]. intros t. rewrite Sum_nil by lia. lia.
    - intros c (q & r) Hc (Lq & Lr & R & HJ). destruct (qr_step_ok q r c Lq Lr Hc) as (q' & r' & E & Lq' & Lr' & Rq & Rr). exists (q', r'). split; [exact E|]. split; [exact Lq'|]. split; [exact Lr'|]. split.
      + intros t. rewrite R, (Sum_first c K) by lia. rewrite Rq, Z.eqb_refl, Rr. rewrite (Sum_ext (c + 1) K (fun j => rd q' j * rd b (t - j)) (fun j => rd q j * rd b (t - j))) by (intros j Hj; rewrite Rq; destruct (Z.eqb_spec j c); [lia|reflexivity]). lia.
      + apply (JS c q r q' r'); assumption.
    - exists q, r. split; [exact E|]. split; [exact Lq|]. split; [|exact HJ]. intros t. rewrite R. f_equal. symmetry. apply conv_finite; [unfold K; lia|intros; apply rd_top; lia|intros; apply rd_neg; lia].
  Qed.
End QuoRem.

(** What quo_rem does before the loop. *)
Lemma quo_rem_unfold a b : b <> [] -> zlen b <= zlen a ->
  quo_rem a b = (if rd b (zlen b - 1) =? 0 then Raise ZeroDivisionError
                 else if negb (rd a (zlen a - 1) mod rd b (zlen b - 1) =? 0) then Raise ValueError
                 else do '(q, r) <- foldM (qr_step b) (rev (zrange 0 (zlen a - zlen b + 1))) (zeros (zlen a - zlen b + 1), a); Ret (polynomial q, polynomial r)).
Proof.
  intros Nb L. assert (1 <= zlen b) by (unfold zlen; destruct b; [congruence|cbn [length]; lia]). unfold quo_rem. change (len a) with (zlen a). change (len b) with (zlen b). destruct (Z.ltb_spec (zlen a) (zlen b)); [lia|].
  rewrite (rd_get b) by lia. cbn [bind]. rewrite (rd_get a) by lia. cbn [bind]. unfold pymod. destruct (rd b (zlen b - 1) =? 0); [reflexivity|]. cbn [bind].
  replace (low (zlen a) a) with a by (unfold low, zlen; rewrite Nat2Z.id, firstn_all; reflexivity). reflexivity.
Qed.

Lemma quo_rem_ok a b : b <> [] -> rd b (zlen b - 1) <> 0 ->
  (zlen a < zlen b -> quo_rem a b = Ret ([0], polynomial a)) /\
  (zlen b <= zlen a -> rd a (zlen a - 1) mod rd b (zlen b - 1) <> 0 -> quo_rem a b = Raise ValueError) /\
  (zlen b <= zlen a -> rd a (zlen a - 1) mod rd b (zlen b - 1) = 0 -> exists q r, quo_rem a b = Ret (q, r) /\ normal q /\ normal r /\
     (forall t, rd a t = conv (rd q) (rd b) t + rd r t) /\
     (rd b (zlen b - 1) = 1 \/ rd b (zlen b - 1) = -1 -> forall t, zlen b - 1 <= t -> rd r t = 0)).
Proof.
  intros Nb Hlc. assert (1 <= zlen b) by (unfold zlen; destruct b; [congruence|cbn [length]; lia]). split; [|split].
  - intros L. unfold quo_rem. change (len a) with (zlen a). change (len b) with (zlen b). destruct (Z.ltb_spec (zlen a) (zlen b)); [reflexivity|lia].
  - intros L M. rewrite quo_rem_unfold by assumption. destruct (Z.eqb_spec (rd b (zlen b - 1)) 0); [congruence|]. destruct (Z.eqb_spec (rd a (zlen a - 1) mod rd b (zlen b - 1)) 0); [congruence|reflexivity].
  - intros L M. rewrite quo_rem_unfold by assumption. destruct (Z.eqb_spec (rd b (zlen b - 1)) 0); [congruence|]. rewrite M. cbn [Z.eqb negb].
    destruct (qr_loop a b ltac:(lia) Hlc (fun c q r => rd b (zlen b - 1) = 1 \/ rd b (zlen b - 1) = -1 -> forall t, zlen b - 1 + c <= t -> rd r t = 0)) as (q & r & E & Lq & R & J).
    + intros _ t Ht. apply rd_top. lia.
    + intros c q r q' r' Hc Lr _ J Rq Rr U t Ht. rewrite Rr. destruct (Z.eq_dec t (zlen b - 1 + c)) as [->|D].
      * replace (zlen b - 1 + c - c) with (zlen b - 1) by lia. replace (zlen b - 1 + c) with (c + zlen b - 1) by lia. generalize (rd r (c + zlen b - 1)). intros x. destruct U as [-> | ->]; [rewrite Z.div_1_r; lia|]. replace x with (- x * -1) at 2 by lia. rewrite Z.div_mul by lia. lia.
      * rewrite (J U t) by lia. rewrite (rd_top b (t - c)) by lia. lia.
    + rewrite E. cbn [bind]. destruct (polynomial_ok q) as (Nq & Rq). destruct (polynomial_ok r) as (Nr & Rr). exists (polynomial q), (polynomial r). split; [reflexivity|]. split; [exact Nq|]. split; [exact Nr|]. split.
      * intros t. rewrite Rr, (conv_ext _ (rd q) _ (rd b)) by (intros; try apply Rq; reflexivity). rewrite R. lia.
      * intros U t Ht. rewrite Rr. apply (J U). lia.
Qed.

(** The top coefficient of a product. *)
Lemma conv_top_coef f g a b : 0 <= a -> 0 <= b -> (forall j, a < j -> f j = 0) -> (forall j, b < j -> g j = 0) -> (forall j, j < 0 -> f j = 0) -> conv f g (a + b) = f a * g b.
Proof.
  intros Ha Hb Hf Hg H0. rewrite conv_Sum, (Sum_pick _ _ a).
  - f_equal. f_equal. lia.
  - lia.
  - intros j Hj D. destruct (Z.lt_ge_cases j a); [rewrite (Hg (a + b - j)) by lia; lia|rewrite Hf by lia; lia].
Qed.

(** If b divides a, quo_rem finds the quotient. *)
Lemma quo_rem_exact a b Q : normal a -> b <> [] -> rd b (zlen b - 1) <> 0 -> normal Q -> (exists i, rd a i <> 0) -> (forall t, rd a t = conv (rd Q) (rd b) t) -> quo_rem a b = Ret (Q, [0]).
Proof.
  intros Na Nb Hlc NQ (i0 & Hi0) HQ. assert (Lb : 1 <= zlen b) by (unfold zlen; destruct b; [congruence|cbn [length]; lia]). assert (LQ : 1 <= zlen Q) by (destruct NQ as (N & _); unfold zlen; destruct Q; [congruence|cbn [length]; lia]).
  assert (La : 1 <= zlen a) by (destruct Na as (N & _); unfold zlen; destruct a; [congruence|cbn [length]; lia]).
  assert (TQ : rd Q (zlen Q - 1) <> 0).
  { destruct NQ as (N & [E|E]); [|rewrite <- last_rd by exact N; exact E]. intros Z0. apply Hi0. rewrite HQ. apply conv_zero_l. intros j. destruct (Z.eq_dec j (zlen Q - 1)) as [->|D]; [exact Z0|]. apply rd_out. unfold zlen in *. lia. }
  assert (Ta : conv (rd Q) (rd b) (zlen Q - 1 + (zlen b - 1)) = rd Q (zlen Q - 1) * rd b (zlen b - 1)) by (apply conv_top_coef; try lia; intros; try (apply rd_top; lia); apply rd_neg; lia).
  assert (Ea : zlen a = zlen Q + zlen b - 1).
  { apply Z.le_antisymm.
    - destruct (Z.le_gt_cases (zlen a) (zlen Q + zlen b - 1)) as [L|L]; [exact L|exfalso]. destruct Na as (N & [E|E]); [unfold zlen in *; lia|]. apply E. rewrite last_rd by exact N. rewrite HQ. apply (conv_top _ _ (zlen Q - 1) (zlen b - 1)); try lia; intros; apply rd_top; lia.
    - destruct (Z.le_gt_cases (zlen Q + zlen b - 1) (zlen a)) as [L|L]; [exact L|exfalso]. rewrite <- HQ, rd_top in Ta by lia. nia. }
  rewrite quo_rem_unfold by (try assumption; lia). destruct (Z.eqb_spec (rd b (zlen b - 1)) 0); [congruence|]. rewrite HQ. replace (zlen a - 1) with (zlen Q - 1 + (zlen b - 1)) by lia. rewrite Ta, Z.mod_mul by exact Hlc. cbn [Z.eqb negb].
  destruct (qr_loop a b ltac:(lia) Hlc (fun c q r => forall j, c <= j -> rd q j = rd Q j)) as (q & r & E & Lq & R & J).
  - intros j Hj. rewrite rd_zeros. symmetry. apply rd_top. lia.
  - intros c q r q' r' Hc Lr R J Rq Rr j Hj. rewrite Rq. destruct (Z.eqb_spec j c) as [->|D]; [|apply J; lia].
    assert (S0 : rd r (c + zlen b - 1) = rd Q c * rd b (zlen b - 1)).
    { specialize (R (c + zlen b - 1)). rewrite HQ in R. rewrite (conv_finite _ _ (zlen a - zlen b + 1)) in R by (try lia; intros; first [apply rd_top; lia|apply rd_neg; lia]).
      rewrite (Sum_app 0 c (zlen a - zlen b + 1)) in R by lia. rewrite (Sum_zero 0 c) in R by (intros j Hj'; rewrite (rd_top b) by lia; lia). rewrite (Sum_first c) in R by lia.
      rewrite (Sum_ext (c + 1) _ (fun j => rd q j * rd b (c + zlen b - 1 - j)) (fun j => rd Q j * rd b (c + zlen b - 1 - j))) in R by (intros j Hj'; rewrite J by lia; reflexivity).
      replace (c + zlen b - 1 - c) with (zlen b - 1) in R by lia. lia. }
    rewrite S0, Z.div_mul by exact Hlc. reflexivity.
  - rewrite E. cbn [bind]. assert (Rq : forall j, rd q j = rd Q j) by (intros j; destruct (Z.lt_ge_cases j 0); [rewrite !rd_neg by assumption; reflexivity|apply J; assumption]).
    f_equal. f_equal.
    + apply normal_ext; [apply polynomial_ok|exact NQ|]. intros i. rewrite (proj2 (polynomial_ok q)). apply Rq.
    + apply normal_ext; [apply polynomial_ok|apply normal_one|]. intros i. rewrite (proj2 (polynomial_ok r)). specialize (R i). rewrite (conv_ext _ (rd Q) _ (rd b)) in R by (intros; try apply Rq; reflexivity). rewrite rd_cons, rd_nil. rewrite HQ in R. destruct (i =? 0); lia.
Qed.
