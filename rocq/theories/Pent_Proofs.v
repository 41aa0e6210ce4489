(** * Euler's pentagonal number theorem and the number of partitions *)
From Coq Require Import ZArith List Lia Bool Sorting.Sorted.
From Verif Require Import Base Sums Count Lists Lists2 Poly_Spec Poly_Proofs Pent_Spec.
Import ListNotations.
Open Scope Z_scope.

(** ** Products of 1 - x^i *)
Fixpoint dprod (l : list Z) (m : Z) : Z :=
  match l with [] => unit_series m | i :: l => dprod l m - dprod l (m - i) end.

Lemma dprod_snoc l i m : dprod (l ++ [i]) m = dprod l m - dprod l (m - i).
Proof. revert m. induction l as [|a l IH]; intros m; cbn [app dprod]; [reflexivity|]. rewrite !IH. replace (m - a - i) with (m - i - a) by lia. ring. Qed.
Lemma unit_neg m : m < 0 -> unit_series m = 0.
Proof. intros H. unfold unit_series. destruct (Z.eqb_spec m 0); lia. Qed.
Lemma dprod_neg l m : Forall (fun i => 0 <= i) l -> m < 0 -> dprod l m = 0.
Proof. intros F. revert m. induction F as [|i l Hi F IH]; intros m Hm; cbn [dprod]; [apply unit_neg, Hm|]. rewrite !IH by lia. reflexivity. Qed.
Lemma zrange_nonneg a b : 0 <= a -> Forall (fun i => 0 <= i) (zrange a b).
Proof. intros H. apply Forall_forall. intros x Hx. apply zrange_In in Hx. lia. Qed.

Definition R (s n m : Z) : Z := dprod (zrange (s + 1) (n + 1)) m.
Lemma R_neg s n m : 0 <= s -> m < 0 -> R s n m = 0.
Proof. intros Hs Hm. apply dprod_neg; [apply zrange_nonneg; lia|exact Hm]. Qed.
Lemma R_same n m : R n n m = unit_series m.
Proof. unfold R. rewrite zrange_nil by lia. reflexivity. Qed.
Lemma R_top s n m : s < n -> R s n m = R s (n - 1) m - R s (n - 1) (m - n).
Proof. intros H. unfold R. rewrite zrange_snoc by lia. replace (n - 1 + 1) with n by lia. replace (n + 1 - 1) with n by lia. apply dprod_snoc. Qed.
Lemma R_bot s n m : s <= n -> R (s - 1) n m = R s n m - R s n (m - s).
Proof. intros H. unfold R. replace (s - 1 + 1) with s by lia. rewrite zrange_cons by lia. reflexivity. Qed.

Lemma euler_product_R N m : euler_product N m = R 0 (Z.of_nat N) m.
Proof.
  revert m. induction N as [|N IH]; intros m; cbn [euler_product]; [symmetry; apply R_same|].
  rewrite R_top by lia. replace (Z.of_nat (S N) - 1) with (Z.of_nat N) by lia. rewrite <- !IH. set (i := Z.of_nat (S N)). assert (Hi : 1 <= i) by lia.
  destruct (Z.lt_ge_cases m 0) as [L|L].
  - rewrite conv_neg by exact L. rewrite !IH, !R_neg by lia. reflexivity.
  - rewrite conv_comm. rewrite (conv_ext _ (fun j => unit_series j - unit_series (j - i)) _ (euler_product N)); [|intros j Hj; unfold one_minus, unit_series; destruct (Z.eqb_spec j 0), (Z.eqb_spec j i), (Z.eqb_spec (j - i) 0); lia|reflexivity].
    rewrite conv_sub_l. f_equal; [apply conv_one_l; intros; rewrite IH; apply R_neg; lia|].
    change (fun j => unit_series (j - i)) with (shift i unit_series). rewrite conv_shift; [|lia|apply unit_neg]. apply conv_one_l. intros; rewrite IH; apply R_neg; lia.
Qed.

(** ** The pentagonal number theorem *)
Definition tri (s : Z) : Z := s * (s + 1) / 2.
Lemma tri_2 s : 2 * tri s = s * (s + 1).
Proof.
  unfold tri. symmetry. apply Z.div_exact; [lia|]. destruct (Z.Even_or_Odd s) as [[k ->]|[k ->]].
  - replace (2 * k * (2 * k + 1)) with (k * (2 * k + 1) * 2) by ring. apply Z.mod_mul. lia.
  - replace ((2 * k + 1) * (2 * k + 1 + 1)) with ((2 * k + 1) * (k + 1) * 2) by ring. apply Z.mod_mul. lia.
Qed.
Definition pent1 (k : Z) : Z := k * (3 * k - 1) / 2.
Definition pent2 (k : Z) : Z := k * (3 * k + 1) / 2.
Lemma pent1_2 k : 2 * pent1 k = k * (3 * k - 1).
Proof.
  unfold pent1. symmetry. apply Z.div_exact; [lia|]. destruct (Z.Even_or_Odd k) as [[c ->]|[c ->]].
  - replace (2 * c * (3 * (2 * c) - 1)) with (c * (3 * (2 * c) - 1) * 2) by ring. apply Z.mod_mul. lia.
  - replace ((2 * c + 1) * (3 * (2 * c + 1) - 1)) with ((2 * c + 1) * (3 * c + 1) * 2) by ring. apply Z.mod_mul. lia.
Qed.
Lemma pent2_1 k : pent2 k = pent1 k + k.
Proof. unfold pent1, pent2. replace (k * (3 * k + 1)) with (k * (3 * k - 1) + k * 2) by ring. apply Z.div_add. lia. Qed.
Definition sg (k : Z) : Z := (-1) ^ k.
Lemma sg_next k : 0 <= k -> sg (k + 1) = - sg k.
Proof. intros H. unfold sg. rewrite Z.pow_add_r by lia. lia. Qed.

Definition F (n m : Z) : Z := Sum 0 (n + 1) (fun s => sg s * R s n (m - (s * n + tri s))).

Lemma F_step n m : 1 <= n -> F n m = F (n - 1) m + sg n * (unit_series (m - pent1 n) + unit_series (m - pent2 n)).
Proof.
  intros Hn. unfold F. rewrite (Sum_last 0 n) by lia. replace (n - 1 + 1) with n by lia. rewrite R_same.
  rewrite (Sum_ext 0 n _ (fun s => sg s * R s (n - 1) (m - (s * n + tri s)) - sg s * R s (n - 1) (m - (s * n + tri s) - n))) by (intros s Hs; rewrite R_top by lia; ring).
  rewrite Sum_minus.
  assert (A : Sum 0 n (fun s => sg s * R s (n - 1) (m - (s * n + tri s))) - Sum 0 n (fun s => sg s * R s (n - 1) (m - (s * (n - 1) + tri s))) = Sum 0 (n - 1) (fun s => sg s * R s (n - 1) (m - (s * n + tri s) - n))).
  { rewrite <- Sum_minus. rewrite Sum_first by lia. replace (0 * n) with (0 * (n - 1)) by lia. rewrite Z.sub_diag, Z.add_0_l. replace n with (n - 1 + 1) at 1 by lia. rewrite <- (Sum_shift 0 (n - 1) 1). apply Sum_ext. intros t Ht. cbn beta.
    rewrite sg_next by lia. pose proof (R_bot (t + 1) (n - 1) (m - ((t + 1) * (n - 1) + tri (t + 1))) ltac:(lia)) as B. replace (t + 1 - 1) with t in B by lia.
    replace (m - ((t + 1) * n + tri (t + 1))) with (m - ((t + 1) * (n - 1) + tri (t + 1)) - (t + 1)) by ring.
    replace (m - (t * n + tri t) - n) with (m - ((t + 1) * (n - 1) + tri (t + 1))); [rewrite B; ring|]. pose proof (tri_2 t). pose proof (tri_2 (t + 1)). nia. }
  assert (L : Sum 0 n (fun s => sg s * R s (n - 1) (m - (s * n + tri s) - n)) = Sum 0 (n - 1) (fun s => sg s * R s (n - 1) (m - (s * n + tri s) - n)) - sg n * unit_series (m - pent1 n)).
  { replace n with (n - 1 + 1) at 1 by lia. rewrite Sum_last by lia. rewrite R_same. pose proof (sg_next (n - 1) ltac:(lia)) as G. replace (n - 1 + 1) with n in G by lia. rewrite G.
    replace (m - ((n - 1) * n + tri (n - 1)) - n) with (m - pent1 n); [ring|]. pose proof (tri_2 (n - 1)). pose proof (pent1_2 n). nia. }
  rewrite L. replace (m - (n * n + tri n)) with (m - pent2 n); [|rewrite pent2_1; pose proof (tri_2 n); pose proof (pent1_2 n); nia]. lia.
Qed.

(** The coefficient of x^m in the pentagonal series, cut after [n] terms. *)
Definition pent (n m : Z) : Z := unit_series m + Sum 1 (n + 1) (fun k => sg k * (unit_series (m - pent1 k) + unit_series (m - pent2 k))).
Lemma F_pent n m : 0 <= n -> F n m = pent n m.
Proof.
  intros Hn. revert m. pattern n. apply natlike_ind; [| |exact Hn].
  - intros m. unfold F, pent. rewrite (Sum_one 0), (Sum_nil 1) by lia. rewrite R_same. change (0 * 0 + tri 0) with 0. rewrite Z.sub_0_r. change (sg 0) with 1. lia.
  - clear n Hn. intros n Hn IH m. unfold Z.succ. rewrite F_step by lia. replace (n + 1 - 1) with n by lia. rewrite IH. unfold pent. rewrite (Sum_last 1 (n + 1)) by lia. lia.
Qed.

Theorem pentagonal n m : 0 <= n -> m <= n -> R 0 n m = pent n m.
Proof.
  intros Hn Hm. rewrite <- F_pent by exact Hn. unfold F. rewrite Sum_first by lia. change (0 * n + tri 0) with 0. rewrite Z.sub_0_r. rewrite Sum_zero; [change (sg 0) with 1; lia|].
  intros s Hs. rewrite R_neg; [lia|lia|]. pose proof (tri_2 s). nia.
Qed.

(** ** Counting partitions with parts up to [k] *)
Definition bounded (k m : Z) (l : list Z) : Prop := is_partition m l /\ Forall (fun x => x <= k) l.

Fixpoint parts (f : nat) (k m : Z) : list (list Z) :=
  if m <? 0 then [] else if k <=? 0 then (if m =? 0 then [[]] else [])
  else match f with O => [] | S f => parts f (k - 1) m ++ map (cons k) (parts f k (m - k)) end.

Lemma partition_nonneg m l : is_partition m l -> 0 <= m.
Proof. intros (P & _ & <-). clear -P. induction P as [|x l Hx P IH]; [cbn; lia|]. change (zsum (x :: l)) with (x + zsum l). lia. Qed.

Lemma bounded_zero m l : bounded 0 m l <-> m = 0 /\ l = [].
Proof.
  split; [|intros [-> ->]; repeat split; constructor]. intros ((P & _ & E) & B). destruct l as [|x l]; [split; [symmetry; exact E|reflexivity]|]. inversion_clear P. inversion_clear B. lia.
Qed.
Lemma bounded_step k m l : 1 <= k -> bounded k m l <-> bounded (k - 1) m l \/ exists l', l = k :: l' /\ bounded k (m - k) l'.
Proof.
  intros Hk. split.
  - intros ((P & S & E) & B). destruct l as [|x l]; [left; repeat split; auto|]. inversion_clear P as [|? ? Hx P']. inversion_clear B as [|? ? Bx B']. inversion_clear S as [|? ? S' SF]. destruct (Z.eq_dec x k) as [->|N].
    + right. exists l. split; [reflexivity|]. change (zsum (k :: l)) with (k + zsum l) in E. repeat split; auto. lia.
    + left. repeat split; [constructor; auto|constructor; auto|exact E|]. constructor; [lia|]. rewrite Forall_forall in *. intros y Hy. specialize (SF y Hy). lia.
  - intros [((P & S & E) & B)|(l' & -> & (P & S & E) & B)].
    + repeat split; auto. rewrite Forall_forall in *. intros x Hx. specialize (B x Hx). cbn in B. lia.
    + split; [split; [constructor; [lia|exact P]|split]|constructor; [lia|exact B]]; [|change (zsum (k :: l')) with (k + zsum l'); lia].
      constructor; [exact S|]. rewrite Forall_forall in B. apply Forall_forall. intros x Hx. specialize (B x Hx). cbn in B. lia.
Qed.
Lemma parts_ok f : forall k m, 0 <= k -> k + m <= Z.of_nat f -> NoDup (parts f k m) /\ forall l, In l (parts f k m) <-> bounded k m l.
Proof.
  induction f as [|f IH]; intros k m Hk Hf.
  - cbn [parts]. destruct (Z.ltb_spec m 0) as [N|N]; [split; [constructor|]; intros l; split; [intros []|intros (P & _); apply partition_nonneg in P; lia]|].
    assert (k = 0) by lia. assert (m = 0) by lia. subst. cbn. split; [repeat constructor; intros []|]. intros l. rewrite bounded_zero. split; [intros [<-|[]]; auto|intros [_ ->]; auto].
  - cbn [parts]. destruct (Z.ltb_spec m 0) as [N|N]; [split; [constructor|]; intros l; split; [intros []|intros (P & _); apply partition_nonneg in P; lia]|].
    destruct (Z.leb_spec k 0) as [K|K].
    + assert (k = 0) by lia. subst k. destruct (Z.eqb_spec m 0) as [->|M]; [split; [repeat constructor; intros []|]|split; [constructor|]]; intros l; rewrite bounded_zero; split; [intros [<-|[]]; auto|intros [_ ->]; left; reflexivity|intros []|intros [? _]; lia].
    + destruct (IH (k - 1) m ltac:(lia) ltac:(lia)) as (N1 & I1). destruct (IH k (m - k) ltac:(lia) ltac:(lia)) as (N2 & I2). split.
      * apply NoDup_app_intro; [exact N1|apply FinFun.Injective_map_NoDup; [congruence|exact N2]|]. intros l H1 H2. apply I1 in H1 as (_ & B). apply in_map_iff in H2 as (l' & <- & _). inversion_clear B. lia.
      * intros l. rewrite in_app_iff, in_map_iff, I1, (bounded_step k m l) by lia. split; (intros [H|(l' & H1 & H2)]; [auto|right]); exists l'; (split; [auto|apply I2, H2]).
Qed.
Definition cnt (k m : Z) : Z := Z.of_nat (length (parts (Z.to_nat (k + m)) k m)).

Lemma cnt_number k m : 0 <= k -> number_of (bounded k m) (cnt k m).
Proof.
  intros Hk. unfold cnt. destruct (Z.lt_ge_cases m 0) as [L|L].
  - destruct (Z.to_nat (k + m)); cbn [parts]; (destruct (Z.ltb_spec m 0); [|lia]); apply number_of_none; intros l (P & _); apply partition_nonneg in P; lia.
  - destruct (parts_ok (Z.to_nat (k + m)) k m Hk ltac:(lia)) as (N & I). eapply number_of_ext; [exact I|]. apply number_of_list, N.
Qed.
Lemma cnt_neg k m : 0 <= k -> m < 0 -> cnt k m = 0.
Proof. intros Hk Hm. apply (number_of_unique (bounded k m)); [apply cnt_number, Hk|]. apply number_of_none. intros l (P & _). apply partition_nonneg in P. lia. Qed.
Lemma cnt_zero m : cnt 0 m = unit_series m.
Proof.
  apply (number_of_unique (bounded 0 m)); [apply cnt_number; lia|]. unfold unit_series. destruct (Z.eqb_spec m 0) as [->|N].
  - apply number_of_one with []. intros l. rewrite bounded_zero. tauto.
  - apply number_of_none. intros l H. apply bounded_zero in H. lia.
Qed.
Lemma cnt_step k m : 1 <= k -> cnt k m = cnt (k - 1) m + cnt k (m - k).
Proof.
  intros Hk. apply (number_of_unique (bounded k m)); [apply cnt_number; lia|]. eapply number_of_ext; [intros l; symmetry; apply bounded_step, Hk|]. apply number_of_or.
  - intros l (_ & B) (l' & -> & _). inversion_clear B. lia.
  - apply cnt_number. lia.
  - apply (number_of_bij (bounded k (m - k)) _ (cons k) (@tl Z)); [..|apply cnt_number; lia].
    + intros l H. split; [exists l; auto|reflexivity].
    + intros l (l' & -> & H). split; [exact H|reflexivity].
Qed.
Lemma cnt_large k m : 0 <= m <= k -> cnt k m = cnt m m.
Proof.
  intros H. apply (number_of_unique (bounded k m)); [apply cnt_number; lia|]. eapply number_of_ext; [|apply cnt_number; lia]. intros l. split; intros (P & B); (split; [exact P|]); [rewrite Forall_forall in *; intros x Hx; specialize (B x Hx); cbn in B; lia|].
  destruct P as (P & _ & E). rewrite <- E. clear -P. apply Forall_forall. intros x Hx. revert P. induction l as [|y l IH]; [destruct Hx|]. intros P. inversion_clear P as [|? ? Hy P']. change (zsum (y :: l)) with (y + zsum l).
  assert (0 <= zsum l) by (clear -P'; induction P' as [|z l Hz P IH]; [cbn; lia|]; change (zsum (z :: l)) with (z + zsum l); lia). destruct Hx as [->|Hx]; [lia|]. specialize (IH Hx P'). lia.
Qed.

(** The number of partitions. *)
Definition p (m : Z) : Z := cnt m m.
Lemma p_number m : number_of (is_partition m) (p m).
Proof.
  unfold p. destruct (Z.lt_ge_cases m 0) as [L|L].
  - replace (cnt m m) with 0; [apply number_of_none; intros l P; apply partition_nonneg in P; lia|]. unfold cnt. destruct (Z.to_nat (m + m)); cbn [parts]; (destruct (Z.ltb_spec m 0); [reflexivity|lia]).
  - eapply number_of_ext; [|apply (cnt_number m m L)]. intros l. split; [intros (P & _); exact P|]. intros P. split; [exact P|]. destruct P as (P & _ & E). rewrite <- E. clear -P. apply Forall_forall. intros x Hx. revert P. induction l as [|y l IH]; [destruct Hx|]. intros P. inversion_clear P as [|? ? Hy P']. change (zsum (y :: l)) with (y + zsum l).
    assert (0 <= zsum l) by (clear -P'; induction P' as [|z l Hz P IH]; [cbn; lia|]; change (zsum (z :: l)) with (z + zsum l); lia). destruct Hx as [->|Hx]; [lia|]. specialize (IH Hx P'). lia.
Qed.
Lemma p_neg m : m < 0 -> p m = 0.
Proof. intros H. apply (number_of_unique (is_partition m)); [apply p_number|]. apply number_of_none. intros l P. apply partition_nonneg in P. lia. Qed.

(** ** The inverse of Euler's product *)
Lemma R_cnt n m : 0 <= n -> conv (R 0 n) (cnt n) m = unit_series m.
Proof.
  intros Hn. revert m. pattern n. apply natlike_ind; [| |exact Hn].
  - intros m. rewrite (conv_ext _ unit_series _ unit_series); [|intros; apply R_same|intros; apply cnt_zero]. apply conv_one_l. apply unit_neg.
  - clear n Hn. intros n Hn IH m. unfold Z.succ. destruct (Z.lt_ge_cases m 0) as [L|L]; [rewrite conv_neg, unit_neg by exact L; reflexivity|].
    rewrite (conv_ext _ (fun j => R 0 n j - shift (n + 1) (R 0 n) j) _ (cnt (n + 1))); [|intros j Hj; rewrite R_top by lia; replace (n + 1 - 1) with n by lia; reflexivity|reflexivity].
    rewrite conv_sub_l, conv_shift; [|lia|intros; apply R_neg; lia]. rewrite <- (IH m). rewrite (conv_ext (R 0 n) (R 0 n) (cnt n) (fun j => cnt (n + 1) j + -1 * shift (n + 1) (cnt (n + 1)) j)); [|reflexivity|intros j Hj; unfold shift; rewrite (cnt_step (n + 1) j) by lia; replace (n + 1 - 1) with n by lia; ring].
    rewrite conv_add_r, conv_mul_r. rewrite (conv_comm (R 0 n) (shift _ _)), conv_shift; [|lia|intros; apply cnt_neg; lia]. rewrite (conv_comm (cnt (n + 1))). ring.
Qed.

Lemma p_inverse m : conv (pent m) p m = unit_series m.
Proof.
  destruct (Z.lt_ge_cases m 0) as [L|L]; [rewrite conv_neg, unit_neg by exact L; reflexivity|]. rewrite <- (R_cnt m m L). apply conv_ext; intros j Hj; [symmetry; apply pentagonal; lia|]. unfold p. symmetry. apply cnt_large. lia.
Qed.

(** The recurrence. *)
Theorem p_rec m N : 1 <= m -> 0 <= N -> (forall k, N < k -> m < pent1 k) ->
  p m = Sum 1 (N + 1) (fun k => - sg k * (p (m - pent1 k) + p (m - pent2 k))).
Proof.
  intros Hm HN HN2. pose proof (p_inverse m) as E. unfold unit_series in E at 1. destruct (Z.eqb_spec m 0); [lia|].
  assert (D : forall c, 0 <= c -> conv (fun j => unit_series (j - c)) p m = p (m - c)).
  { intros c Hc. change (fun j => unit_series (j - c)) with (shift c unit_series). rewrite conv_shift; [|exact Hc|apply unit_neg]. apply conv_one_l. apply p_neg. }
  assert (S1 : forall b, conv (fun j => Sum 1 b (fun k => sg k * (unit_series (j - pent1 k) + unit_series (j - pent2 k)))) p m = Sum 1 b (fun k => sg k * (p (m - pent1 k) + p (m - pent2 k)))).
  { intros b. pattern b. apply (right_end _ 1); clear b.
    - intros b Hb. rewrite (Sum_nil 1 b (fun k => sg k * (p (m - pent1 k) + p (m - pent2 k)))) by lia. rewrite conv_Sum. apply Sum_zero. intros i Hi. rewrite Sum_nil by lia. lia.
    - intros b Hb IH. rewrite Sum_last by lia. rewrite <- IH. rewrite <- (D (pent1 b)), <- (D (pent2 b)).
      + rewrite <- conv_add_l, <- conv_mul_l, <- conv_add_l. apply conv_ext; [|reflexivity]. intros j Hj. rewrite Sum_last by lia. reflexivity.
      + rewrite pent2_1. pose proof (pent1_2 b). nia.
      + pose proof (pent1_2 b). nia. }
  unfold pent in E. rewrite conv_add_l, S1 in E. rewrite conv_one_l in E by apply p_neg.
  assert (P1 : forall k, 1 <= k -> k <= pent1 k) by (intros k Hk; pose proof (pent1_2 k); nia).
  assert (C : Sum 1 (m + 1) (fun k => sg k * (p (m - pent1 k) + p (m - pent2 k))) = Sum 1 (N + 1) (fun k => sg k * (p (m - pent1 k) + p (m - pent2 k)))).
  { assert (Z0 : forall k, 1 <= k -> N < k \/ m < k -> sg k * (p (m - pent1 k) + p (m - pent2 k)) = 0).
    { intros k Hk O. assert (m < pent1 k) by (destruct O as [O|O]; [apply HN2, O|specialize (P1 k Hk); lia]). rewrite !p_neg; [lia| |]; rewrite ?pent2_1; lia. }
    destruct (Z.le_ge_cases N m) as [L|L].
    - apply Sum_extend; [lia|]. intros; apply Z0; lia.
    - symmetry. apply Sum_extend; [lia|]. intros; apply Z0; lia. }
  rewrite C in E. rewrite (Sum_ext 1 (N + 1) _ (fun k => -1 * (sg k * (p (m - pent1 k) + p (m - pent2 k))))) by (intros; ring). rewrite Sum_mul. lia.
Qed.
