(** * stirling_number2: what it computes *)
From Coq Require Import ZArith List Lia Bool Sorting.Sorted Sorting.Permutation.
From Verif Require Import Base Lists Lists2 Count Perm_Proofs Tuples_Proofs Enum_Model Enum_Proofs Enum_Proofs2.
Import ListNotations.
Open Scope Z_scope.

(** ** Partitions into two blocks *)
Lemma one_block Y : StronglySorted Z.lt Y -> number_of (fun P => set_partition Y P /\ length P = 1%nat) (match Y with [] => 0 | _ => 1 end).
Proof.
  intros HY. destruct Y as [|y Y].
  - apply number_of_none. intros P ((F & _ & H) & L). destruct P as [|b [|c P]]; try discriminate. inversion_clear F as [|? ? (N & _) _]. cbn in H. rewrite app_nil_r in H. symmetry in H. apply Permutation_nil in H. contradiction.
  - apply (number_of_one _ [y :: Y]). intros P. split.
    + intros ((F & _ & H) & L). destruct P as [|b [|c P]]; try discriminate. inversion_clear F as [|? ? (_ & S) _]. cbn in H. rewrite app_nil_r in H. f_equal. apply sorted_perm_eq; try assumption.
      intros x. split; apply Permutation_in; [exact H|symmetry; exact H].
    + intros ->. split; [|reflexivity]. split; [constructor; [split; [discriminate|exact HY]|constructor]|]. split; [constructor; constructor|]. cbn. rewrite app_nil_r. reflexivity.
Qed.

Lemma choose_total n : zsum (map (choose n) (seq 0 (S n))) = 2 ^ Z.of_nat n.
Proof.
  assert (H : forall n m, (n <= m)%nat -> zsum (map (choose n) (seq 0 (S m))) = 2 ^ Z.of_nat n); [|apply H; lia]. clear n.
  induction n as [|n IH]; intros m Hm.
  - cbn [seq map]. rewrite zsum_cons. rewrite <- seq_shift, map_map. rewrite (map_ext _ (fun _ => 0)) by reflexivity. rewrite zsum_const. cbn [choose]. change (2 ^ Z.of_nat 0) with 1. lia.
  - cbn [seq map]. rewrite zsum_cons, choose_0. rewrite <- seq_shift, map_map. rewrite (map_ext _ (fun k => choose n k + choose n (S k))) by reflexivity.
    assert (P : forall (f h : nat -> Z) l, zsum (map (fun x => f x + h x) l) = zsum (map f l) + zsum (map h l)) by (intros f h; induction l as [|x l IHl]; [reflexivity|]; cbn [map]; rewrite !zsum_cons, IHl; lia).
    rewrite P. destruct m as [|m]; [lia|]. rewrite (IH m) by lia. pose proof (IH (S m) ltac:(lia)) as E. cbn [seq map] in E. rewrite zsum_cons, choose_0 in E.
    rewrite <- (map_map S (choose n)), seq_shift.
    rewrite (Nat2Z.inj_succ n), Z.pow_succ_r by lia.
    assert (X : zsum (map (choose n) (seq 1 (S m))) = 2 ^ Z.of_nat n - 1) by (pose proof E as E'; cbn [seq map] in E' |- *; rewrite zsum_cons in E' |- *; lia). rewrite X. lia.
Qed.

Theorem two_blocks x X : StronglySorted Z.lt (x :: X) -> number_of (fun P => set_partition (x :: X) P /\ length P = 2%nat) (2 ^ Z.of_nat (length X) - 1).
Proof.
  intros HX. pose proof HX as HX0. inversion_clear HX0 as [|? ? HX' Hf]. set (n := length X).
  assert (T : zsum (map (fun k => choose n k * (if Nat.eqb k n then 0 else 1)) (seq 0 (S n))) = 2 ^ Z.of_nat n - 1).
  { rewrite <- choose_total, seq_S, !map_app, !zsum_app. cbn [Nat.add map]. rewrite !zsum_cons, Nat.eqb_refl.
    replace (choose n n) with 1 by (rewrite choose_sym, Nat.sub_diag, choose_0 by lia; reflexivity).
    rewrite (map_ext_in (fun k => choose n k * (if Nat.eqb k n then 0 else 1)) (choose n)); [cbn; lia|]. intros k Hk. apply in_seq in Hk. destruct (Nat.eqb_spec k n); lia. }
  rewrite <- T.
  apply (number_of_ext (fun P => exists k, In k (seq 0 (S n)) /\ exists b, In b (sublists k X) /\ exists Q, (set_partition (without b X) Q /\ length Q = 1%nat) /\ P = (x :: b) :: Q)).
  { intros P. rewrite (set_partition_cons x X P HX). fold n. split.
    - intros (k & Hk & b & Hb & Q & (HQ & L) & ->). split; [exists k, b; split; [exact Hk|split; [exact Hb|exists Q; auto]]|]. cbn [length]. rewrite L. reflexivity.
    - intros ((k & b & Hk & Hb & Q & HQ & ->) & L). cbn [length] in L. exists k. split; [exact Hk|]. exists b. split; [exact Hb|]. exists Q. split; [split; [exact HQ|lia]|reflexivity]. }
  apply number_of_sum; [apply seq_NoDup| |].
  - intros k Hk. apply in_seq in Hk. unfold n at 1. rewrite <- sublists_length. rewrite <- (zsum_const (if Nat.eqb k n then 0 else 1) (sublists k X)).
    apply number_of_sum; [apply sublists_NoDup, HX'| |].
    + intros b Hb. apply sublists_In in Hb; [|exact HX']. destruct Hb as [Hb Hbl].
      apply (number_of_bij (fun Q => set_partition (without b X) Q /\ length Q = 1%nat) _ (cons (x :: b)) (@tl (list Z))).
      * intros Q HQ. split; [exists Q; auto|reflexivity].
      * intros P (Q & HQ & ->). split; [exact HQ|reflexivity].
      * pose proof (without_length b X HX' Hb) as L. pose proof (one_block (without b X) (without_sorted b X HX')) as O. destruct (without b X); cbn [length] in L; destruct (Nat.eqb_spec k n); unfold n in *; try lia; exact O.
    + intros b b' P _ _ (Q & _ & ->) (Q' & _ & E). injection E as -> _. reflexivity.
  - intros k k' P _ _ (b & Hb & Q & _ & ->) (b' & Hb' & Q' & _ & E). injection E as -> _.
    apply sublists_In in Hb; [|exact HX']. apply sublists_In in Hb'; [|exact HX']. destruct Hb as [_ <-]. destruct Hb' as [_ <-]. reflexivity.
Qed.

(** ** The table *)
Definition start (m : Z) : pdict :=
  fold_left (fun S i => pd_set S i (i + 1) 0) (zrange 0 (m + 1)) (fold_left (fun S i => pd_set S i 0 0) (zrange 1 (m + 1)) (pd_set (fun _ _ => None) 0 0 1)).
Definition row (n : Z) (S : pdict) (i : Z) : outcome pdict :=
  foldM (fun S j => do a <- pd_get S (i - 1) j; do b <- pd_get S (i - j) (j - 1); Ret (pd_set S i j (j * a + b))) (zrange 1 (Z.min i n + 1)) S.
Lemma stirling_rows m n : stirling_number2 m n = (do T <- foldM (row n) (zrange 1 (m + 1)) (start m); pd_get T m n).
Proof. reflexivity. Qed.

Lemma start_ok m : 0 <= m -> forall i j, start m i j =
  if (0 <=? i) && (i <=? m) && (j =? i + 1) then Some 0 else if (0 <=? i) && (i <=? m) && (j =? 0) then Some (if i =? 0 then 1 else 0) else None.
Proof.
  intros Hm.
  assert (A : forall k, 0 <= k -> forall i j, fold_left (fun S i => pd_set S i 0 0) (zrange 1 (k + 1)) (pd_set (fun _ _ => None) 0 0 1) i j =
    if (0 <=? i) && (i <=? k) && (j =? 0) then Some (if i =? 0 then 1 else 0) else None).
  { intros k Hk. pattern k. apply natlike_ind; [| |exact Hk].
    - intros i j. change (zrange 1 (0 + 1)) with (@nil Z). cbn [fold_left]. unfold pd_set. destruct (Z.eqb_spec i 0), (Z.leb_spec 0 i), (Z.leb_spec i 0), (Z.eqb_spec j 0); cbn [andb]; try lia; reflexivity.
    - intros x Hx IH i j. unfold Z.succ. rewrite zrange_snoc, fold_left_app by lia. cbn [fold_left]. unfold pd_set at 1. rewrite IH.
      destruct (Z.eqb_spec i (x + 1)), (Z.eqb_spec j 0), (Z.leb_spec 0 i), (Z.leb_spec i x), (Z.leb_spec i (x + 1)), (Z.eqb_spec i 0); cbn [andb]; try lia; reflexivity. }
  assert (B : forall S0 k, 0 <= k -> forall i j, fold_left (fun S i => pd_set S i (i + 1) 0) (zrange 0 k) S0 i j = if (0 <=? i) && (i <? k) && (j =? i + 1) then Some 0 else S0 i j).
  { intros S0 k Hk. pattern k. apply natlike_ind; [| |exact Hk].
    - intros i j. change (zrange 0 0) with (@nil Z). cbn [fold_left]. destruct (Z.leb_spec 0 i), (Z.ltb_spec i 0); cbn [andb]; try lia; reflexivity.
    - intros x Hx IH i j. unfold Z.succ. rewrite zrange_snoc, fold_left_app by lia. cbn [fold_left]. unfold pd_set at 1. rewrite IH.
      destruct (Z.eqb_spec i x), (Z.leb_spec 0 i), (Z.ltb_spec i x), (Z.ltb_spec i (x + 1)), (Z.eqb_spec j (i + 1)), (Z.eqb_spec j (x + 1)); cbn [andb]; try lia; reflexivity. }
  intros i j. unfold start. rewrite B, A by lia. destruct (Z.leb_spec 0 i), (Z.leb_spec i m), (Z.ltb_spec i (m + 1)); cbn [andb]; try lia; reflexivity.
Qed.

(** The rows 1, ..., r of the table, with columns up to 2. *)
Definition filled (m r : Z) (S : pdict) : Prop :=
  (forall i, 0 <= i <= m -> S i 0 = Some (if i =? 0 then 1 else 0)) /\
  (forall i, 0 <= i <= r -> S i 1 = Some (if i =? 0 then 0 else 1)) /\
  (1 <= m -> S 1 2 = Some 0) /\ (forall i, 2 <= i <= r -> S i 2 = Some (2 ^ (i - 2) - 1)) /\
  S 0 2 = None /\ (forall i j, 3 <= j -> S i j = if (0 <=? i) && (i <=? m) && (j =? i + 1) then Some 0 else None).

Lemma filled_start m : 0 <= m -> filled m 0 (start m).
Proof.
  intros Hm. unfold filled. repeat split.
  - intros i Hi. rewrite start_ok by exact Hm. destruct (Z.leb_spec 0 i), (Z.leb_spec i m), (Z.eqb_spec 0 (i + 1)); cbn [andb]; try lia; reflexivity.
  - intros i Hi. replace i with 0 by lia. rewrite start_ok by exact Hm. destruct (Z.leb_spec 0 m); [reflexivity|lia].
  - intros H1. rewrite start_ok by exact Hm. destruct (Z.leb_spec 1 m); [reflexivity|lia].
  - intros i Hi. lia.
  - rewrite start_ok by exact Hm. cbn. rewrite andb_false_r. reflexivity.
  - intros i j Hj. rewrite start_ok by exact Hm. destruct (Z.eqb_spec j 0); [lia|]. rewrite (andb_false_r ((0 <=? i) && (i <=? m))). reflexivity.
Qed.

Lemma filled_row m n r S : 2 <= n -> 0 <= r < m -> r <= 1 \/ n = 2 -> filled m r S -> exists S', row n S (r + 1) = Ret S' /\ filled m (r + 1) S'.
Proof.
  intros Hn Hr Hc (F0 & F1 & F12 & F2 & F02 & F3). unfold row. destruct (Z.eq_dec r 0) as [->|D].
  - replace (Z.min (0 + 1) n + 1) with 2 by lia. change (zrange 1 2) with [1]. cbn [foldM]. change (0 + 1 - 1) with 0. change (1 - 1) with 0. unfold pd_get. rewrite (F1 0), (F0 0) by lia. cbn [bind Z.eqb].
    eexists. split; [reflexivity|]. unfold filled, pd_set. repeat split.
    + intros i Hi. rewrite andb_false_r. apply F0, Hi.
    + intros i Hi. destruct (Z.eqb_spec i (0 + 1)) as [->|]; [reflexivity|]. cbn [andb]. apply F1. lia.
    + intros H1. cbn. apply F12, H1.
    + intros i Hi. lia.
    + exact F02.
    + intros i j Hj. destruct (Z.eqb_spec j 1); [lia|]. rewrite andb_false_r. apply F3, Hj.
  - replace (Z.min (r + 1) n + 1) with 3 by lia. change (zrange 1 3) with [1; 2]. cbn [foldM]. replace (r + 1 - 1) with r by lia. change (1 - 1) with 0. change (2 - 1) with 1. unfold pd_get.
    rewrite (F1 r), (F0 r) by lia. destruct (Z.eqb_spec r 0); [lia|]. cbn [bind]. unfold pd_set at 1. destruct (Z.eqb_spec r (r + 1)); [lia|]. cbn [andb].
    assert (E2 : S r 2 = Some (if r =? 1 then 0 else 2 ^ (r - 2) - 1)). { destruct (Z.eqb_spec r 1) as [->|]; [apply F12; lia|apply F2; lia]. } rewrite E2. cbn [bind].
    unfold pd_set at 1. replace (r + 1 - 2) with (r - 1) by lia. destruct (Z.eqb_spec (r - 1) (r + 1)); [lia|]. cbn [andb]. rewrite (F1 (r - 1)) by lia. cbn [bind].
    eexists. split; [reflexivity|]. unfold filled, pd_set. repeat split.
    + intros i Hi. destruct (Z.eqb_spec 0 2); [lia|]. destruct (Z.eqb_spec 0 1); [lia|]. rewrite !andb_false_r. apply F0, Hi.
    + intros i Hi. destruct (Z.eqb_spec 1 2); [lia|]. rewrite andb_false_r, Z.eqb_refl, andb_true_r. destruct (Z.eqb_spec i (r + 1)) as [->|]; [destruct (Z.eqb_spec (r + 1) 0); [lia|reflexivity]|]. apply F1. lia.
    + intros H1. destruct (Z.eqb_spec 1 (r + 1)); [lia|]. cbn [andb]. apply F12, H1.
    + intros i Hi. rewrite Z.eqb_refl, andb_true_r. destruct (Z.eqb_spec i (r + 1)) as [->|].
      * f_equal. destruct (Z.eqb_spec r 1) as [->|]; [reflexivity|]. destruct (Z.eqb_spec (r - 1) 0); [lia|]. replace (r + 1 - 2) with (Z.succ (r - 2)) by lia. rewrite Z.pow_succ_r by lia. lia.
      * destruct (Z.eqb_spec 2 1); [lia|]. rewrite andb_false_r. apply F2. lia.
    + destruct (Z.eqb_spec 0 (r + 1)); [lia|]. exact F02.
    + intros i j Hj. destruct (Z.eqb_spec j 2); [lia|]. destruct (Z.eqb_spec j 1); [lia|]. rewrite !andb_false_r. apply F3, Hj.
Qed.

Lemma filled_rows m n r : 2 <= n -> 0 <= r <= m -> r <= 2 \/ n = 2 -> exists S, foldM (row n) (zrange 1 (r + 1)) (start m) = Ret S /\ filled m r S.
Proof.
  intros Hn Hr. assert (H0 : 0 <= r) by lia. revert Hr. pattern r. apply natlike_ind; [| |exact H0].
  - intros Hm _. exists (start m). split; [reflexivity|apply filled_start; lia].
  - intros x Hx IH Hr Hc. unfold Z.succ in *. destruct (IH ltac:(lia) ltac:(lia)) as (S & E & F). rewrite zrange_snoc, foldM_app, E by lia. cbn [bind foldM].
    destruct (filled_row m n x S Hn ltac:(lia) ltac:(lia) F) as (S' & E' & F'). rewrite E'. exists S'. split; [reflexivity|exact F'].
Qed.

Lemma stirling_two m : 2 <= m -> stirling_number2 m 2 = Ret (2 ^ (m - 2) - 1).
Proof.
  intros Hm. rewrite stirling_rows. destruct (filled_rows m 2 m ltac:(lia) ltac:(lia) (or_intror eq_refl)) as (S & -> & _ & _ & _ & F & _). cbn [bind]. unfold pd_get. rewrite F by lia. reflexivity.
Qed.

Lemma stirling_raises m n : 3 <= m -> 3 <= n -> stirling_number2 m n = Raise KeyError.
Proof.
  intros Hm Hn. rewrite stirling_rows. replace (zrange 1 (m + 1)) with (zrange 1 (2 + 1) ++ 3 :: zrange 4 (m + 1)).
  - rewrite foldM_app. destruct (filled_rows m n 2 ltac:(lia) ltac:(lia) ltac:(lia)) as (S & -> & F0 & F1 & F12 & F2 & F02 & F3). cbn [bind foldM].
    assert (E : row n S 3 = Raise KeyError); [|rewrite E; reflexivity]. unfold row. replace (Z.min 3 n + 1) with 4 by lia. change (zrange 1 4) with [1; 2; 3]. cbn [foldM].
    change (3 - 1) with 2. change (1 - 1) with 0. change (3 - 2) with 1. change (2 - 1) with 1. change (3 - 3) with 0. unfold pd_get. rewrite (F1 2), (F0 2) by lia. cbn [Z.eqb bind]. unfold pd_set. cbn [Z.eqb Pos.eqb andb]. rewrite (F2 2) by lia. cbn [Z.eqb bind Pos.eqb andb].
    rewrite (F1 1) by lia. cbn [Z.eqb bind Pos.eqb andb]. rewrite (F3 2 3) by lia. destruct (Z.leb_spec 2 m); [|lia]. cbn [Z.leb Z.compare Pos.compare Pos.compare_cont andb Z.add Z.eqb Pos.add Pos.succ Pos.eqb bind]. rewrite F02. reflexivity.
  - rewrite <- zrange_cons by lia. symmetry. apply zrange_app; lia.
Qed.

(** Few elements: at most two. *)
Lemma stirling_few m n : 0 <= m <= 2 -> 2 <= n -> m < n -> stirling_number2 m n = if n =? m + 1 then Ret 0 else Raise KeyError.
Proof.
  intros Hm Hn L. rewrite stirling_rows. destruct (filled_rows m n m Hn ltac:(lia) ltac:(lia)) as (S & -> & F0 & F1 & F12 & F2 & F02 & F3). cbn [bind]. unfold pd_get.
  destruct (Z.eq_dec n 2) as [->|]; [destruct (Z.eq_dec m 0) as [->|]; [rewrite F02; reflexivity|replace m with 1 by lia; rewrite F12 by lia; reflexivity]|].
  rewrite F3 by lia. destruct (Z.leb_spec 0 m), (Z.leb_spec m m); try lia. cbn [andb]. destruct (n =? m + 1); reflexivity.
Qed.

Lemma stirling_negative m n : m < 0 \/ n < 0 -> stirling_number2 m n = Raise KeyError.
Proof.
  intros H. rewrite stirling_rows. destruct (Z_lt_dec m 0) as [L|L].
  - unfold start. rewrite (zrange_nil 1), (zrange_nil 0) by lia. cbn [foldM bind fold_left]. unfold pd_get, pd_set. destruct (Z.eqb_spec m 0); [lia|]. reflexivity.
  - assert (E : forall l S, (forall i, In i l -> 1 <= i) -> foldM (row n) l S = Ret S).
    { induction l as [|i l IH]; intros S Hl; [reflexivity|]. cbn [foldM]. unfold row at 1. rewrite zrange_nil by (specialize (Hl i (or_introl eq_refl)); lia). cbn [foldM bind]. apply IH. intros k Hk. apply Hl. right. exact Hk. }
    rewrite E by (intros i Hi; apply zrange_In in Hi; lia). cbn [bind]. unfold pd_get. rewrite start_ok by lia. destruct (Z.eqb_spec n (m + 1)); [lia|]. destruct (Z.eqb_spec n 0); [lia|]. rewrite !andb_false_r. reflexivity.
Qed.
