(** * The bound of branch_and_bound: reduced matrices *)
From Coq Require Import ZArith List Bool Lia Permutation.
From Verif Require Import Base Py Sums Lists2 TSP_Model TSP_Spec TSP_Proofs TSP_Proofs2 TSP_Proofs3.
Import ListNotations.
Open Scope Z_scope.

Definition cell (M : list (list (option Z))) (i j : Z) : option Z := nth (Z.to_nat j) (nth (Z.to_nat i) M []) None.
Definition square (k : Z) (M : list (list (option Z))) : Prop :=
  Z.of_nat (length M) = k /\ forall i, 0 <= i < k -> Z.of_nat (length (nth (Z.to_nat i) M [])) = k.

Definition finite (a : option Z) : Prop := exists z, a = Some z.

Lemma wmin_fold : forall l x, finite x \/ (exists y, In y l /\ finite y) -> finite (fold_left (fun m y => if wltb y m then y else m) l x).
Proof.
  induction l as [|y l IH]; intros x H; cbn [fold_left]; [destruct H as [H|(y & [] & _)]; exact H|].
  apply IH. destruct H as [(z & ->)|(y' & [<-|H] & F)].
  - left. destruct y as [v|]; cbn [wltb]; [destruct (v <? z)|]; eexists; reflexivity.
  - left. destruct F as (v & ->). destruct x as [z|]; cbn [wltb]; [destruct (v <? z)|]; eexists; reflexivity.
  - right. exists y'. split; assumption.
Qed.

Lemma wmin_list_ok l : (exists y, In y l /\ finite y) -> exists m, wmin_list l = Ret (Some m).
Proof.
  intros (y & Hy & F). destruct l as [|x l]; [destruct Hy|]. cbn [wmin_list]. destruct (wmin_fold l x) as (m & ->); [|exists m; reflexivity]. destruct Hy as [->|Hy]; [left; exact F|right; exists y; split; assumption].
Qed.

Lemma cell_upd M i i' j row : 0 <= i < Z.of_nat (length M) -> 0 <= i' -> cell (upd M (Z.to_nat i) row) i' j = if i' =? i then nth (Z.to_nat j) row None else cell M i' j.
Proof.
  intros Hi Hi'. unfold cell. rewrite upd_nth by lia. destruct (Z.eqb_spec i' i) as [->|N]; [rewrite Nat.eqb_refl; reflexivity|]. destruct (Nat.eqb_spec (Z.to_nat i') (Z.to_nat i)); [lia|reflexivity].
Qed.

Lemma nth_map_def {A B} (f : A -> B) l j d d' : (j < length l)%nat -> nth j (map f l) d = f (nth j l d').
Proof. intros H. rewrite (nth_indep _ d (f d')) by (rewrite map_length; exact H). apply map_nth. Qed.

Lemma reduce_rows_ok k M : 0 <= k -> square k M -> (forall i, 0 <= i < k -> exists j, 0 <= j < k /\ finite (cell M i j)) ->
  exists mm M', reduce_rows M = Ret (M', Some (Sum 0 k mm)) /\ square k M' /\ forall i j, 0 <= i < k -> 0 <= j < k -> cell M' i j = wsub (cell M i j) (Some (mm i)).
Proof.
  intros Hk [L1 L2] F. unfold reduce_rows. rewrite L1.
  destruct (foldM_range (fun '(M, val) i => do row <- pyget M i; do m <- wmin_list row; do M <- pyset M i (map (fun x => wsub x m) row); Ret (M, wadd val m))
    (fun i s => exists mm, snd s = Some (Sum 0 i mm) /\ square k (fst s) /\ forall i' j, 0 <= i' < k -> 0 <= j < k -> cell (fst s) i' j = if i' <? i then wsub (cell M i' j) (Some (mm i')) else cell M i' j) 0 k (M, Some 0) Hk) as (s & E & mm & H1 & H2 & H3).
  - exists (fun _ => 0). cbn [fst snd]. rewrite Sum_nil by lia. split; [reflexivity|]. split; [split; assumption|]. intros i' j Hi Hj. destruct (Z.ltb_spec i' 0); [lia|reflexivity].
  - intros i [M1 v] Hi (mm & Ev & [S1 S2] & HM). cbn [fst snd] in *. subst v. rewrite (pyget_nth M1 i []) by lia. cbn [bind]. set (row := nth (Z.to_nat i) M1 []) in *.
    assert (Lr : Z.of_nat (length row) = k) by (apply S2, Hi). assert (Hrow : forall j, 0 <= j < k -> nth (Z.to_nat j) row None = cell M i j). { intros j Hj. change (nth (Z.to_nat j) row None) with (cell M1 i j). rewrite HM by assumption. destruct (Z.ltb_spec i i); [lia|reflexivity]. }
    destruct (wmin_list_ok row) as (m & Em). { destruct (F i Hi) as (j & Hj & Fj). exists (cell M i j). split; [|exact Fj]. rewrite <- (Hrow j Hj). apply nth_In. lia. }
    rewrite Em. cbn [bind]. rewrite pyset_upd by lia. cbn [bind wadd]. eexists. split; [reflexivity|]. exists (fun x => if x =? i then m else mm x). cbn [fst snd]. split; [|split].
    + rewrite Sum_last by lia. rewrite Z.eqb_refl. do 2 f_equal. apply Sum_ext. intros x Hx. destruct (Z.eqb_spec x i); [lia|reflexivity].
    + split; [rewrite upd_length; exact S1|]. intros i' Hi'. rewrite upd_nth by lia. destruct (Nat.eqb_spec (Z.to_nat i') (Z.to_nat i)); [rewrite map_length; exact Lr|apply S2, Hi'].
    + intros i' j Hi' Hj. rewrite cell_upd by lia. destruct (Z.eqb_spec i' i) as [->|N].
      * destruct (Z.ltb_spec i (i + 1)); [|lia]. rewrite (nth_map_def _ _ _ _ None) by lia. rewrite Hrow by exact Hj. reflexivity.
      * rewrite HM by assumption. destruct (Z.ltb_spec i' i), (Z.ltb_spec i' (i + 1)); try lia; reflexivity.
  - destruct s as [M' v]. cbn [fst snd] in *. subst v. rewrite E. exists mm, M'. split; [reflexivity|]. split; [exact H2|]. intros i j Hi Hj. rewrite H3 by assumption. destruct (Z.ltb_spec i k); [reflexivity|lia].
Qed.

Lemma reduce_cols_ok k M v : 1 <= k -> square k M -> (forall j, 0 <= j < k -> exists i, 0 <= i < k /\ finite (cell M i j)) ->
  exists cc, reduce_cols M (Some v) = Ret (Some (v + Sum 0 k cc)) /\ forall i j w, 0 <= i < k -> 0 <= j < k -> cell M i j = Some w -> cc j <= w.
Proof.
  intros Hk [L1 L2] F. unfold reduce_cols. rewrite L1. cbv zeta.
  destruct (foldM_range (fun '(M, val) j => do row0 <- pyget M 0; do m <- pyget row0 j; do m <- foldM (fun m i => do row <- pyget M i; do x <- pyget row j; Ret (if wltb x m then x else m)) (zrange 1 k) m; do M <- mapM (fun row => do x <- pyget row j; pyset row j (wsub x m)) M; Ret (M, wadd val m))
    (fun j s => exists cc, snd s = Some (v + Sum 0 j cc) /\ square k (fst s) /\ (forall i' j', 0 <= i' < k -> j <= j' < k -> cell (fst s) i' j' = cell M i' j') /\ forall i' j' w, 0 <= i' < k -> 0 <= j' < j -> cell M i' j' = Some w -> cc j' <= w) 0 k (M, Some v) ltac:(lia)) as (s & E & cc & H1 & H2 & _ & H3).
  - exists (fun _ => 0). cbn [fst snd]. rewrite Sum_nil by lia. split; [f_equal; lia|]. split; [split; assumption|]. split; [reflexivity|intros; lia].
  - intros j [M1 u] Hj (cc & Eu & [S1 S2] & HM & HC). cbn [fst snd] in *. subst u.
    assert (G : forall i, 0 <= i < k -> exists row, pyget M1 i = Ret row /\ pyget row j = Ret (cell M i j)). { intros i Hi. exists (nth (Z.to_nat i) M1 []). split; [apply pyget_nth; lia|]. rewrite <- (HM i j Hi ltac:(lia)). apply pyget_nth. rewrite (S2 i Hi). exact Hj. }
    destruct (G 0 ltac:(lia)) as (row0 & E0 & E0'). rewrite E0. cbn [bind]. rewrite E0'. cbn [bind].
    destruct (foldM_range (fun m i => do row <- pyget M1 i; do x <- pyget row j; Ret (if wltb x m then x else m)) (fun i m => (exists i', 0 <= i' < i /\ m = cell M i' j) /\ forall i', 0 <= i' < i -> wle m (cell M i' j)) 1 k (cell M 0 j) Hk) as (m & Em & (i0 & Hi0 & Em0) & Hm).
    { split; [exists 0; split; [lia|reflexivity]|]. intros i' Hi'. replace i' with 0 by lia. apply wle_refl. }
    { intros i m Hi ((i0 & Hi0 & ->) & Hm). destruct (G i ltac:(lia)) as (row & Er & Er'). rewrite Er. cbn [bind]. rewrite Er'. cbn [bind]. eexists. split; [reflexivity|]. destruct (wltb (cell M i j) (cell M i0 j)) eqn:W.
      - split; [exists i; split; [lia|reflexivity]|]. intros i' Hi'. destruct (Z.eq_dec i' i) as [->|]; [apply wle_refl|]. apply (wle_trans _ (cell M i0 j)); [|apply Hm; lia]. unfold wle. destruct (cell M i j), (cell M i0 j); cbn in *; try discriminate; try reflexivity. apply Z.ltb_lt in W. apply Z.ltb_ge. lia.
      - split; [exists i0; split; [lia|reflexivity]|]. intros i' Hi'. destruct (Z.eq_dec i' i) as [->|]; [exact W|apply Hm; lia]. }
    rewrite Em. cbn [bind]. destruct (F j Hj) as (i1 & Hi1 & (w1 & Ew1)). assert (Fm : exists z, m = Some z). { specialize (Hm i1 Hi1). rewrite Ew1 in Hm. destruct m as [z|]; [exists z; reflexivity|discriminate Hm]. } destruct Fm as (z & Ez). rewrite Ez in *.
    rewrite (mapM_ret _ (fun row => upd row (Z.to_nat j) (wsub (nth (Z.to_nat j) row None) (Some z)))).
    + cbn [bind wadd]. eexists. split; [reflexivity|]. exists (fun x => if x =? j then z else cc x). cbn [fst snd]. split; [|split; [|split]].
      * rewrite Sum_last by lia. rewrite Z.eqb_refl. f_equal. rewrite (Sum_ext 0 j (fun x => if x =? j then z else cc x) cc); [lia|]. intros x Hx. destruct (Z.eqb_spec x j); [lia|reflexivity].
      * split; [rewrite map_length; exact S1|]. intros i' Hi'. rewrite (nth_map_def _ _ _ _ []) by lia. rewrite upd_length. apply S2, Hi'.
      * intros i' j' Hi' Hj'. rewrite <- (HM i' j' Hi' ltac:(lia)). unfold cell. rewrite (nth_map_def _ _ _ _ []) by lia. rewrite upd_nth by (specialize (S2 i' Hi'); lia). destruct (Nat.eqb_spec (Z.to_nat j') (Z.to_nat j)); [lia|reflexivity].
      * intros i' j' w Hi' Hj' Ew. destruct (Z.eqb_spec j' j) as [->|]; [|apply (HC i' j' w Hi'); [lia|exact Ew]]. specialize (Hm i' Hi'). rewrite Ew in Hm. unfold wle in Hm. cbn in Hm. apply Z.ltb_ge in Hm. exact Hm.
    + intros row Hr. apply (In_nth _ _ []) in Hr as (r & Lr & <-). assert (X := S2 (Z.of_nat r) ltac:(lia)). rewrite Nat2Z.id in X. rewrite (pyget_nth _ j None) by lia. cbn [bind]. apply pyset_upd. lia.
  - destruct s as [M' u]. cbn [fst snd] in *. subst u. rewrite E. cbn [bind]. exists cc. split; [reflexivity|exact H3].
Qed.

Lemma reduce_matrix_ok k M : 1 <= k -> square k M ->
  (forall i, 0 <= i < k -> exists j, 0 <= j < k /\ finite (cell M i j)) -> (forall j, 0 <= j < k -> exists i, 0 <= i < k /\ finite (cell M i j)) ->
  exists v, reduce_matrix M = Ret (Some v) /\ forall ps, Permutation (map fst ps) (zrange 0 k) -> Permutation (map snd ps) (zrange 0 k) ->
    forall W, (forall i j, In (i, j) ps -> cell M i j = Some (W i j)) -> v <= zsum (map (fun '(i, j) => W i j) ps).
Proof.
  intros Hk S F1 F2. destruct (reduce_rows_ok k M ltac:(lia) S F1) as (mm & M' & E & S' & C). unfold reduce_matrix. rewrite E. cbn [bind].
  destruct (reduce_cols_ok k M' (Sum 0 k mm) Hk S') as (cc & E' & C'). { intros j Hj. destruct (F2 j Hj) as (i & Hi & (z & Ez)). exists i. split; [exact Hi|]. rewrite C, Ez by assumption. eexists. reflexivity. }
  exists (Sum 0 k mm + Sum 0 k cc). split; [exact E'|]. intros ps P1 P2 W HW.
  assert (ZP : forall (f : Z -> Z) l l', Permutation l l' -> zsum (map f l) = zsum (map f l')). { intros f l l'. induction 1; cbn [map]; rewrite ?zsum_cons; lia. }
  unfold Sum. rewrite <- (ZP mm _ _ P1), <- (ZP cc _ _ P2), !map_map.
  assert (R : forall i j, In (i, j) ps -> mm i + cc j <= W i j).
  { intros i j H. assert (Hi : 0 <= i < k) by (apply zrange_In, (Permutation_in _ P1), in_map_iff; exists (i, j); split; [reflexivity|exact H]). assert (Hj : 0 <= j < k) by (apply zrange_In, (Permutation_in _ P2), in_map_iff; exists (i, j); split; [reflexivity|exact H]).
    assert (X := C' i j (W i j - mm i) Hi Hj). rewrite C, (HW i j H) in X by assumption. specialize (X eq_refl). lia. }
  clear - R. induction ps as [|[i j] ps IH]; cbn [map]; [cbn; lia|]. rewrite !zsum_cons. cbn [fst snd]. assert (X := R i j (or_introl eq_refl)). specialize (IH (fun a b H => R a b (or_intror H))). lia.
Qed.
