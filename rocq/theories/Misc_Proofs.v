(** * Proofs about Bernoulli numbers *)
From Coq Require Import ZArith List Bool Lia QArith Qcanon Qfield.
From Verif Require Import Base Enum_Proofs Misc_Spec Misc_Model.
Import ListNotations.
Open Scope Qc_scope.

Lemma zq_add a b : zq (a + b) = zq a + zq b.
Proof. apply Qc_is_canon. unfold zq, Qcplus. cbn [this Q2Qc]. rewrite !Qred_correct. rewrite inject_Z_plus. reflexivity. Qed.
Lemma zq_mul a b : zq (a * b) = zq a * zq b.
Proof. apply Qc_is_canon. unfold zq, Qcmult. cbn [this Q2Qc]. rewrite !Qred_correct. rewrite inject_Z_mult. reflexivity. Qed.
Lemma zq_inj a b : zq a = zq b -> a = b.
Proof. intros H. apply (f_equal this) in H. unfold zq in H. cbn [this Q2Qc] in H. assert (E : (inject_Z a == inject_Z b)%Q) by (rewrite <- (Qred_correct (inject_Z a)), <- (Qred_correct (inject_Z b)), H; reflexivity). unfold Qeq in E. cbn in E. lia. Qed.
Lemma zq_0 : zq 0 = 0. Proof. reflexivity. Qed.
Lemma zq_1 : zq 1 = 1. Proof. reflexivity. Qed.

Lemma qsum_ext n f h : (forall k, (k < n)%nat -> f k = h k) -> qsum n f = qsum n h.
Proof. induction n as [|n IH]; intros H; cbn [qsum]; [reflexivity|]. rewrite IH by (intros; apply H; lia). rewrite H by lia. reflexivity. Qed.
Lemma qsum_plus n f h : qsum n (fun k => f k + h k) = qsum n f + qsum n h.
Proof. induction n as [|n IH]; cbn [qsum]; [reflexivity|]. rewrite IH. ring. Qed.
Lemma qsum_first n f : qsum (S n) f = f O + qsum n (fun k => f (S k)).
Proof. induction n as [|n IH]; [cbn; ring|]. cbn [qsum] in *. rewrite IH. ring. Qed.

(** The binomial transform. *)
Definition shift (a : nat -> Qc) : nat -> Qc := fun k => a (S k).
Fixpoint bt (m : nat) (a : nat -> Qc) : Qc := match m with O => a O | S m => bt m a + bt m (shift a) end.

Lemma bt_ext m : forall a b, (forall k, (k <= m)%nat -> a k = b k) -> bt m a = bt m b.
Proof. induction m as [|m IH]; intros a b H; cbn [bt]; [apply H; lia|]. f_equal; apply IH; intros k Hk; [apply H; lia|unfold shift; apply H; lia]. Qed.
Lemma bt_plus m : forall a b, bt m (fun k => a k + b k) = bt m a + bt m b.
Proof. induction m as [|m IH]; intros a b; cbn [bt]; [reflexivity|]. rewrite IH. unfold shift at 1. rewrite (IH (fun k => a (S k)) (fun k => b (S k))). unfold shift. ring. Qed.
Lemma bt_opp m : forall a, bt m (fun k => - a k) = - bt m a.
Proof. induction m as [|m IH]; intros a; cbn [bt]; [reflexivity|]. rewrite IH. unfold shift at 1. rewrite (IH (fun k => a (S k))). unfold shift. ring. Qed.

Lemma bt_sum m : forall a, bt m a = qsum (S m) (fun k => zq (choose m k) * a k).
Proof.
  induction m as [|m IH]; intros a; cbn [bt]; [cbn [qsum]; rewrite choose_0, zq_1; ring|]. rewrite !IH.
  rewrite (qsum_first (S m) (fun k => zq (choose (S m) k) * a k)). rewrite choose_0.
  rewrite (qsum_ext (S m) (fun k => zq (choose (S m) (S k)) * a (S k)) (fun k => zq (choose m k) * shift a k + zq (choose m (S k)) * a (S k))).
  2:{ intros k Hk. cbn [choose]. rewrite zq_add. unfold shift. ring. }
  rewrite qsum_plus. rewrite (qsum_first m (fun k => zq (choose m k) * a k)). rewrite choose_0. cbn [qsum]. rewrite (choose_out m (S m)) by lia. rewrite zq_0, zq_1. ring.
Qed.

Fixpoint sg (n : nat) : Qc := match n with O => 1 | S n => - sg n end.
Lemma sg_square n : sg n * sg n = 1.
Proof. induction n as [|n IH]; cbn [sg]; [ring|]. rewrite <- IH. ring. Qed.

(** Binomial inversion. *)
Lemma inversion m : forall a, bt m (fun n => sg n * bt n a) = sg m * a m.
Proof.
  induction m as [|m IH]; intros a; [reflexivity|]. cbn [bt]. rewrite <- bt_plus.
  rewrite (bt_ext m _ (fun n => - (sg n * bt n (shift a)))).
  - rewrite (bt_opp m (fun n => sg n * bt n (shift a))). rewrite IH. unfold shift. cbn [sg]. ring.
  - intros k Hk. unfold shift. cbn [sg bt]. unfold shift. ring.
Qed.

(** The sequence defined by the full recursion. *)
Definition next_b (l : list Qc) : Qc := - qsum (length l) (fun k => zq (choose (S (length l)) k) * nth k l 0) / zq (Z.of_nat (S (length l))).
Fixpoint blist (n : nat) : list Qc := match n with O => [1] | S n => let l := blist n in l ++ [next_b l] end.
Definition bern (n : nat) : Qc := nth n (blist n) 0.

Lemma blist_length n : length (blist n) = S n.
Proof. induction n as [|n IH]; cbn [blist]; [reflexivity|]. rewrite app_length, IH. cbn. lia. Qed.
Lemma blist_nth n k : (k <= n)%nat -> nth k (blist n) 0 = bern k.
Proof.
  induction n as [|n IH]; intros H; [replace k with O by lia; reflexivity|]. destruct (Nat.eq_dec k (S n)) as [->|N]; [reflexivity|].
  cbn [blist]. rewrite app_nth1 by (rewrite blist_length; lia). apply IH. lia.
Qed.
Lemma bern_S m : bern (S m) = - qsum (S m) (fun k => zq (choose (S (S m)) k) * bern k) / zq (Z.of_nat (S (S m))).
Proof.
  unfold bern at 1. cbn [blist]. rewrite app_nth2 by (rewrite blist_length; lia). rewrite blist_length, Nat.sub_diag. cbn [nth]. unfold next_b. rewrite blist_length.
  rewrite (qsum_ext (S m) (fun k => zq (choose (S (S m)) k) * nth k (blist m) 0) (fun k => zq (choose (S (S m)) k) * bern k)); [reflexivity|]. intros k Hk. rewrite blist_nth by lia. reflexivity.
Qed.

Lemma zq_neq n : (n <> 0)%Z -> zq n <> 0.
Proof. intros H E. apply H, zq_inj. exact E. Qed.

(** A sequence satisfies the recursion at [S m]. *)
Definition rec_at (a : nat -> Qc) (m : nat) : Prop := qsum (S m) (fun k => zq (choose (S m) k) * a k) = 0.

Lemma choose_S m : choose (S m) m = Z.of_nat (S m).
Proof. induction m as [|m IH]; [reflexivity|]. change (choose (S (S m)) (S m)) with (choose (S m) m + choose (S m) (S m))%Z. rewrite IH. assert (E : choose (S m) (S m) = 1%Z). { clear. induction m as [|m IH]; [reflexivity|]. change (choose (S (S m)) (S (S m))) with (choose (S m) (S m) + choose (S m) (S (S m)))%Z. rewrite IH, choose_out by lia. lia. } rewrite E. lia. Qed.
Lemma choose_top m : choose m m = 1%Z.
Proof. induction m as [|m IH]; [reflexivity|]. cbn [choose]. rewrite IH, choose_out by lia. lia. Qed.

Lemma rec_iff a m : rec_at a (S m) <-> a (S m) = - qsum (S m) (fun k => zq (choose (S (S m)) k) * a k) / zq (Z.of_nat (S (S m))).
Proof.
  unfold rec_at. remember (S m) as p eqn:Ep. cbn [qsum]. rewrite choose_S. set (X := qsum p _). assert (N : zq (Z.of_nat (S p)) <> 0) by (apply zq_neq; lia). set (c := zq (Z.of_nat (S p))) in *. split.
  - intros H. transitivity ((X + c * a p - X) / c); [field; exact N|]. rewrite H. field. exact N.
  - intros ->. field. exact N.
Qed.

Lemma bern_rec m : rec_at bern (S m).
Proof. apply rec_iff, bern_S. Qed.

Lemma bern_unique a n : a O = 1 -> (forall m, (m < n)%nat -> rec_at a (S m)) -> forall k, (k <= n)%nat -> a k = bern k.
Proof.
  intros H0 H k. induction k as [k IH] using lt_wf_ind. intros Hk. destruct k as [|k]; [exact H0|]. rewrite bern_S. rewrite (proj1 (rec_iff a k) (H k ltac:(lia))).
  rewrite (qsum_ext (S k) (fun j => zq (choose (S (S k)) j) * a j) (fun j => zq (choose (S (S k)) j) * bern j)); [reflexivity|]. intros j Hj. rewrite IH by lia. reflexivity.
Qed.

Definition delta (n : nat) : Qc := match n with 1%nat => 1 | _ => 0 end.
Lemma bt_split a m : bt (S m) a = qsum (S m) (fun k => zq (choose (S m) k) * a k) + a (S m).
Proof. rewrite bt_sum. remember (S m) as p. cbn [qsum]. rewrite choose_top, zq_1. ring. Qed.

Lemma bt_bern m : bt m bern = bern m + delta m.
Proof.
  destruct m as [|[|m]].
  - cbn. ring.
  - rewrite bt_split. cbn [qsum]. rewrite choose_0, zq_1. change (bern 0) with 1. cbn [delta]. ring.
  - rewrite bt_split. cbn [delta]. pose proof (bern_rec m) as R. unfold rec_at in R. rewrite R. ring.
Qed.

Lemma sym_bern n : sg n * (bern n + delta n) = bern n.
Proof.
  set (c := fun n => sg n * (bern n + delta n)). change (c n = bern n).
  assert (T : forall m, bt m c = c m + delta m).
  { intros m. rewrite (bt_ext m c (fun n => sg n * bt n bern)) by (intros; unfold c; rewrite bt_bern; reflexivity). rewrite inversion. unfold c. destruct m as [|[|m]]; cbn [sg delta]; ring. }
  apply (bern_unique c n); [unfold c; cbn; ring| |lia]. intros m Hm. pose proof (T (S (S m))) as X. rewrite bt_split in X. cbn [delta] in X. unfold rec_at.
  set (q := qsum _ _) in *. transitivity (q + c (S (S m)) - c (S (S m))); [ring|]. rewrite X. ring.
Qed.

Lemma sg_odd n : Nat.odd n = true -> sg n = - (1).
Proof.
  intros H. apply Nat.odd_spec in H as [k ->]. replace (2 * k + 1)%nat with (S (k + k))%nat by lia. cbn [sg]. f_equal. induction k as [|k IH]; [reflexivity|]. replace (S k + S k)%nat with (S (S (k + k))) by lia. cbn [sg]. rewrite IH. ring.
Qed.

(** The odd Bernoulli numbers from [B_3] on vanish. *)
Lemma bern_odd n : Nat.odd n = true -> (3 <= n)%nat -> bern n = 0.
Proof.
  intros H Hn. pose proof (sym_bern n) as S. rewrite (sg_odd n H) in S. assert (D : delta n = 0) by (destruct n as [|[|n]]; [reflexivity|lia|reflexivity]). rewrite D in S.
  assert (E : zq 2 * bern n = 0) by (replace (zq 2) with (1 + 1) by reflexivity; transitivity (bern n - (- (1) * (bern n + 0))); [ring|rewrite S; ring]).
  apply Qcmult_integral in E as [E|E]; [|exact E]. exfalso. apply (zq_neq 2); [lia|exact E].
Qed.

(** ** The program *)
Open Scope Z_scope.
Definition vat (l : list Qc) (k : nat) : Qc := nth k l (Q2Qc 0).

Lemma choose_next m k : (k < m)%nat -> choose m k * (Z.of_nat m - Z.of_nat k) / Z.of_nat (S k) = choose m (S k).
Proof.
  intros H. assert (E : choose m (S k) * Z.of_nat (S k) = choose m k * (Z.of_nat m - Z.of_nat k)).
  { clear H. revert k. induction m as [|m IH]; intros k.
    - destruct k; cbn; ring.
    - destruct k as [|k].
      + cbn [choose]. rewrite !choose_0. pose proof (IH O) as I0. rewrite choose_0 in I0. lia.
      + change (choose (S m) (S (S k))) with (choose m (S k) + choose m (S (S k))). change (choose (S m) (S k)) with (choose m k + choose m (S k)). pose proof (IH k) as I1. pose proof (IH (S k)) as I2. lia. }
  rewrite <- E. apply Z.div_mul. lia.
Qed.

Lemma bern_value_ok m l : (2 <= m)%nat -> (m <= length l)%nat -> vat l 0 = Q2Qc 1 ->
  bern_value (Z.of_nat m) l = Ret (- qsum m (fun k => zq (choose (S m) k) * vat l k) / zq (Z.of_nat (S m)))%Qc.
Proof.
  intros Hm Hl H0. unfold bern_value.
  assert (F : forall b, (1 <= b <= m)%nat -> foldM (fun '(total, binom) k => let binom := binom * (Z.of_nat m + 2 - k) / k in do v <- pyget l k; Ret (if Qc_eq_dec v (zq 0) then total else (total + zq binom * v)%Qc, binom)) (zrange 1 (Z.of_nat b)) (zq 1, 1)
    = Ret (qsum b (fun k => (zq (choose (S m) k) * vat l k)%Qc), choose (S m) (b - 1))).
  { intros b Hb. induction b as [|b IH]; [lia|]. destruct (Nat.eq_dec b 0) as [->|Nb].
    - cbn [foldM zrange]. rewrite zrange_nil by lia. cbn [foldM qsum Nat.sub]. rewrite !choose_0, H0, zq_1. reflexivity.
    - replace (Z.of_nat (S b)) with (Z.of_nat b + 1) by lia. rewrite zrange_snoc by lia. rewrite foldM_app. rewrite IH by lia. cbn [bind foldM]. rewrite (pyget_nth l (Z.of_nat b) (Q2Qc 0)) by lia. cbn [bind]. rewrite Nat2Z.id.
      assert (EB : choose (S m) (b - 1) * (Z.of_nat m + 2 - Z.of_nat b) / Z.of_nat b = choose (S m) b). { pose proof (choose_next (S m) (b - 1) ltac:(lia)) as X. replace (S (b - 1)) with b in X by lia. rewrite <- X. f_equal. f_equal. lia. }
      rewrite EB. cbn [qsum]. replace (S b - 1)%nat with b by lia. fold (vat l b). destruct (Qc_eq_dec (vat l b) (zq 0)) as [->|N]; [|reflexivity]. f_equal. f_equal. rewrite zq_0. ring. }
  pose proof (F m ltac:(lia)) as Fm. cbv zeta in Fm |- *. rewrite Fm. cbn [bind]. f_equal. f_equal. f_equal. lia.
Qed.

Lemma vat_upd l i x k : (i < length l)%nat -> vat (upd l i x) k = if Nat.eqb k i then x else vat l k.
Proof.
  intros H. apply upd_nth, H.
Qed.

Lemma bernoulli_list_ok n : 1 <= n -> exists l, bernoulli_list n = Ret l /\ length l = S (Z.to_nat n) /\ forall k, (k <= Z.to_nat n)%nat -> vat l k = bern k.
Proof.
  intros Hn. unfold bernoulli_list. set (v0 := repeat _ _). assert (L0 : length v0 = S (Z.to_nat n)) by (unfold v0; rewrite repeat_length; lia).
  assert (V0 : forall k, vat v0 k = Q2Qc 0). { intros k. unfold vat, v0. destruct (Nat.lt_ge_cases k (Z.to_nat (n + 1))); [apply nth_repeat|apply nth_overflow; rewrite repeat_length; lia]. }
  rewrite pyset_upd by lia. cbn [bind]. rewrite pyset_upd by (rewrite upd_length; lia). cbn [bind]. set (v2 := upd _ _ _).
  assert (L2 : length v2 = S (Z.to_nat n)) by (unfold v2; rewrite !upd_length; exact L0).
  assert (V2 : forall k, vat v2 k = match k with O => Q2Qc 1 | 1%nat => (- zq 1 / zq 2)%Qc | _ => Q2Qc 0 end).
  { intros k. unfold v2. rewrite !vat_upd by (rewrite ?upd_length; lia). change (Z.to_nat 1) with 1%nat. change (Z.to_nat 0) with 0%nat. destruct k as [|[|k]]; cbn [Nat.eqb]; try reflexivity. apply V0. }
  assert (B1 : (- zq 1 / zq 2)%Qc = bern 1) by (apply Qc_is_canon; vm_compute; reflexivity).
  assert (Fm : forall b, 1 <= b <= n / 2 + 1 -> exists l, foldM (fun values m => do v <- bern_value m values; pyset values m v) (map (fun i => 2 * i) (zrange 1 b)) v2 = Ret l /\ length l = S (Z.to_nat n) /\
     (forall k, (k < 2 * Z.to_nat b)%nat -> (k <= Z.to_nat n)%nat -> vat l k = bern k) /\ (forall k, (2 * Z.to_nat b <= k)%nat -> vat l k = Q2Qc 0)).
  { intros b Hb. remember (Z.to_nat (b - 1)) as f eqn:Ef. revert b Hb Ef. induction f as [|f IH]; intros b Hb Ef.
    - assert (b = 1) by lia. subst b. rewrite zrange_nil by lia. exists v2. split; [reflexivity|]. split; [exact L2|]. split.
      + intros k Hk _. rewrite V2. destruct k as [|[|k]]; [reflexivity|exact B1|lia].
      + intros k Hk. rewrite V2. destruct k as [|[|k]]; [lia|lia|reflexivity].
    - destruct (IH (b - 1) ltac:(lia) ltac:(lia)) as (l & E & L & V & W). assert (Eb : zrange 1 b = zrange 1 (b - 1) ++ [b - 1]) by (replace b with (b - 1 + 1) at 1 by lia; apply zrange_snoc; lia). rewrite Eb. rewrite map_app, foldM_app, E. cbn [bind map foldM].
      set (m := (2 * Z.to_nat (b - 1))%nat). assert (Em : 2 * (b - 1) = Z.of_nat m) by (unfold m; lia). rewrite Em. assert (Hm : (2 <= m)%nat) by (unfold m; lia).
      assert (Hmn : (m <= Z.to_nat n)%nat). { pose proof (Z.mul_div_le n 2 ltac:(lia)). unfold m. lia. }
      rewrite bern_value_ok; [|exact Hm|lia|rewrite V by lia; reflexivity]. cbn [bind]. rewrite pyset_upd by lia. rewrite Nat2Z.id. cbn [bind]. eexists. split; [reflexivity|]. split; [rewrite upd_length; exact L|].
      assert (VB : (- qsum m (fun k => zq (choose (S m) k) * vat l k) / zq (Z.of_nat (S m)))%Qc = bern m).
      { destruct m as [|m']; [lia|]. rewrite bern_S. rewrite (qsum_ext (S m') (fun k => (zq (choose (S (S m')) k) * vat l k)%Qc) (fun k => (zq (choose (S (S m')) k) * bern k)%Qc)); [reflexivity|]. intros k Hk. rewrite V by lia. reflexivity. }
      rewrite VB. split.
      + intros k Hk Hkn. rewrite vat_upd by lia. destruct (Nat.eqb_spec k m) as [->|Nk]; [reflexivity|]. destruct (Nat.lt_ge_cases k m) as [X|X]; [apply V; [unfold m in X; exact X|exact Hkn]|].
        assert (k = S m) by lia. subst k. rewrite W by (unfold m; lia). symmetry. apply bern_odd; [|lia]. apply Nat.odd_spec. exists (Z.to_nat (b - 1)). unfold m. lia.
      + intros k Hk. rewrite vat_upd by lia. destruct (Nat.eqb_spec k m) as [->|Nk]; [unfold m in Hk; lia|]. apply W. lia. }
  destruct (Fm (n / 2 + 1)) as (l & E & L & V & _).
  - pose proof (Z.div_pos n 2 ltac:(lia) ltac:(lia)). lia.
  - exists l. split; [exact E|]. split; [exact L|]. intros k Hk. apply V; [|exact Hk]. pose proof (Z.mul_succ_div_gt n 2 ltac:(lia)). pose proof (Z.div_pos n 2 ltac:(lia) ltac:(lia)). lia.
Qed.
