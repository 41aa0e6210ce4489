(** * The determinant *)
From Coq Require Import ZArith List Lia Bool.
From Verif Require Import Base Py Lists Sums Mat_Spec Mat_Model Mat_Proofs.
From Verif Require Mat_MC.
Import ListNotations.
Open Scope Z_scope.

Definition mn := Mat_MC.minor.

Lemma mn_0 a i j : mn a 0 i j = a i j.
Proof. unfold mn, Mat_MC.minor. cbn -[Z.mul]. change (1 * a i j * 1 + 0 = a i j). lia. Qed.
Lemma mn_diag a k : mn a k k k = det (S k) a.
Proof.
  unfold mn, Mat_MC.minor. apply Mat_MC.det_ext. intros x y Hx Hy.
  destruct (Nat.ltb_spec x k), (Nat.ltb_spec y k); f_equal; lia.
Qed.

(** The elimination of round k. *)
Lemma elim_row M n k i p d g : shape M n n -> 0 <= k < Z.of_nat n -> 0 <= i < Z.of_nat n -> k < i -> d <> 0 ->
  (forall j, k < j < Z.of_nat n -> p * en M i j - en M i k * en M k j = d * g j) ->
  exists M', foldM (fun m j => do a <- mget m i j; do b <- mget m i k; do c <- mget m k j; do v <- pydiv (p * a - b * c) d; mset m i j v) (zrange (k + 1) (Z.of_nat n)) M = Ret M' /\
    shape M' n n /\ forall x y, 0 <= x -> 0 <= y < Z.of_nat n -> en M' x y = if (x =? i) && (k <? y) then g y else en M x y.
Proof.
  intros S Hk Hi Hki Hd Hg. destruct (foldM_range (fun m j => do a <- mget m i j; do b <- mget m i k; do c <- mget m k j; do v <- pydiv (p * a - b * c) d; mset m i j v)
    (fun b R => shape R n n /\ forall x y, 0 <= x -> 0 <= y -> en R x y = if (x =? i) && (k <? y) && (y <? b) then g y else en M x y) (k + 1) (Z.of_nat n) M ltac:(lia)) as (M' & E & S' & H).
  - split; [exact S|]. intros x y Hx Hy. destruct (Z.ltb_spec k y), (Z.ltb_spec y (k + 1)); try lia; rewrite ?andb_false_r; reflexivity.
  - intros j R Hj (SR & HR). rewrite (mget_ok R n n i j), (mget_ok R n n i k), (mget_ok R n n k j) by (assumption || lia). cbn [bind].
    assert (E1 : en R i j = en M i j). { rewrite HR by lia. destruct (Z.ltb_spec j j); [lia|]. rewrite andb_false_r. reflexivity. }
    assert (E2 : en R i k = en M i k). { rewrite HR by lia. destruct (Z.ltb_spec k k); [lia|]. rewrite andb_false_r. reflexivity. }
    assert (E3 : en R k j = en M k j). { rewrite HR by lia. destruct (Z.eqb_spec k i); [lia|]. reflexivity. }
    rewrite E1, E2, E3, Hg by lia. unfold pydiv. destruct (Z.eqb_spec d 0) as [|_]; [contradiction|]. cbn [bind]. rewrite Z.mul_comm, Z.div_mul by exact Hd.
    destruct (mset_ok R n n i j (g j) SR Hi ltac:(lia)) as (R' & E & S' & H). exists R'. split; [exact E|]. split; [exact S'|].
    intros x y Hx Hy. rewrite H, HR by assumption. destruct (Z.eqb_spec x i), (Z.eqb_spec y j), (Z.ltb_spec k y), (Z.ltb_spec y j), (Z.ltb_spec y (j + 1)); subst; cbn [andb]; try lia; reflexivity.
  - exists M'. split; [exact E|]. split; [exact S'|]. intros x y Hx Hy. rewrite H by lia. destruct (Z.ltb_spec y (Z.of_nat n)); [|lia]. rewrite andb_true_r. reflexivity.
Qed.

Lemma eliminate_ok M n k p d g : shape M n n -> 0 <= k < Z.of_nat n -> d <> 0 ->
  (forall i j, k < i < Z.of_nat n -> k < j < Z.of_nat n -> p * en M i j - en M i k * en M k j = d * g i j) ->
  exists M', eliminate (Z.of_nat n) k p d M = Ret M' /\ shape M' n n /\ forall x y, 0 <= x < Z.of_nat n -> 0 <= y < Z.of_nat n -> en M' x y = if (k <? x) && (k <? y) then g x y else en M x y.
Proof.
  intros S Hk Hd Hg. unfold eliminate. match goal with |- context [foldM ?F _ M] => destruct (foldM_range F
    (fun b R => shape R n n /\ forall x y, 0 <= x -> 0 <= y < Z.of_nat n -> en R x y = if (k <? x) && (k <? y) && (x <? b) then g x y else en M x y) (k + 1) (Z.of_nat n) M ltac:(lia)) as (M' & E & S' & H) end.
  - split; [exact S|]. intros x y Hx Hy. destruct (Z.ltb_spec k x), (Z.ltb_spec x (k + 1)); try lia; rewrite ?andb_false_r; reflexivity.
  - intros i R Hi (SR & HR). cbv beta. destruct (elim_row R n k i p d (g i) SR Hk ltac:(lia) ltac:(lia) Hd) as (R' & E & S' & H).
    + intros j Hj. rewrite !HR by lia. destruct (Z.ltb_spec i i); [lia|]. destruct (Z.ltb_spec k k); [lia|]. rewrite !andb_false_r. cbn [andb]. apply Hg; lia.
    + exists R'. split; [exact E|]. split; [exact S'|]. intros x y Hx Hy. rewrite H, HR by assumption. destruct (Z.eqb_spec x i), (Z.ltb_spec k x), (Z.ltb_spec k y), (Z.ltb_spec x i), (Z.ltb_spec x (i + 1)); subst; cbn [andb]; try lia; reflexivity.
  - exists M'. split; [exact E|]. split; [exact S'|]. intros x y Hx Hy. rewrite H by lia. destruct (Z.ltb_spec x (Z.of_nat n)); [|lia]. rewrite andb_true_r. reflexivity.
Qed.

(** The exchange of two rows (from column k). *)
Lemma swap_ok M n k i : shape M n n -> 0 <= k < Z.of_nat n -> k < i < Z.of_nat n ->
  exists M', swap_rows (Z.of_nat n) k i M = Ret M' /\ shape M' n n /\
    forall x y, 0 <= x -> k <= y < Z.of_nat n -> en M' x y = en M (if x =? k then i else if x =? i then k else x) y.
Proof.
  intros S Hk Hi. unfold swap_rows. match goal with |- context [foldM ?F _ M] => destruct (foldM_range F
    (fun b R => shape R n n /\ forall x y, 0 <= x -> 0 <= y -> en R x y = if (k <=? y) && (y <? b) then en M (if x =? k then i else if x =? i then k else x) y else en M x y) k (Z.of_nat n) M ltac:(lia)) as (M' & E & S' & H) end.
  - split; [exact S|]. intros x y Hx Hy. destruct (Z.leb_spec k y), (Z.ltb_spec y k); try lia; reflexivity.
  - intros j R Hj (SR & HR). cbv beta. rewrite (mget_ok R n n k j), (mget_ok R n n i j) by (assumption || lia). cbn [bind].
    destruct (mset_ok R n n i j (en R k j) SR ltac:(lia) ltac:(lia)) as (R1 & E1 & S1 & H1). rewrite E1. cbn [bind].
    destruct (mset_ok R1 n n k j (en R i j) S1 ltac:(lia) ltac:(lia)) as (R2 & E2 & S2 & H2). rewrite E2. exists R2. split; [reflexivity|]. split; [exact S2|].
    intros x y Hx Hy. rewrite H2, H1 by assumption. rewrite (HR k j), (HR i j), (HR x y) by lia. destruct (Z.ltb_spec j j); [lia|]. rewrite !andb_false_r.
    destruct (Z.eqb_spec y j) as [->|Hyj].
    + rewrite !andb_true_r. destruct (Z.leb_spec k j); [|lia]. destruct (Z.ltb_spec j j); [lia|]. destruct (Z.ltb_spec j (j + 1)); [|lia]. cbn [andb]. destruct (Z.eqb_spec x k), (Z.eqb_spec x i); subst; try lia; reflexivity.
    + rewrite !andb_false_r. destruct (Z.ltb_spec y j), (Z.ltb_spec y (j + 1)); try lia; reflexivity.
  - exists M'. split; [exact E|]. split; [exact S'|]. intros x y Hx Hy. rewrite H by lia. destruct (Z.leb_spec k y); [|lia]. destruct (Z.ltb_spec y (Z.of_nat n)); [|lia]. reflexivity.
Qed.

(** The search for a row. *)
Lemma find_row_ok M n k : shape M n n -> 0 <= k < Z.of_nat n -> forall t a iv, Z.of_nat t = Z.of_nat n - a -> k < a -> a < Z.of_nat n ->
  exists i, find_row M k (zrange a (Z.of_nat n)) iv = Ret (Some i) /\ a <= i < Z.of_nat n /\ (i < Z.of_nat n - 1 -> en M i k <> 0).
Proof.
  intros S Hk. induction t as [|t IH]; intros a iv Ht Hka Han; [lia|]. rewrite zrange_cons by lia. cbn [find_row]. rewrite (mget_ok M n n a k S) by lia. cbn [bind].
  destruct (Z.eqb_spec (en M a k) 0) as [E|E]; cbn [negb].
  - destruct (Z.eq_dec (a + 1) (Z.of_nat n)) as [L|L].
    + rewrite zrange_nil by lia. cbn [find_row]. exists a. split; [reflexivity|]. split; lia.
    + destruct (IH (a + 1) (Some a) ltac:(lia) ltac:(lia) ltac:(lia)) as (i & Ei & Hi & Hn). exists i. split; [exact Ei|]. split; [lia|exact Hn].
  - exists a. split; [reflexivity|]. split; [lia|]. intros _. exact E.
Qed.

Section Rounds.
Variable n : nat.
Hypothesis n_two : (2 <= n)%nat.

(** The entries before round k. *)
Definition state (a : nat -> nat -> Z) (k : nat) (m : matrix) (den : Z) : Prop :=
  shape m n n /\ den = det k a /\ den <> 0 /\
  forall i j, Z.of_nat k <= i < Z.of_nat n -> Z.of_nat k <= j < Z.of_nat n -> en m i j = mn a k (Z.to_nat i) (Z.to_nat j).

Lemma state_pivot a k m den : state a k m den -> (k < n)%nat -> mget m (Z.of_nat k) (Z.of_nat k) = Ret (det (S k) a).
Proof. intros (S & _ & _ & H) Hk. rewrite (mget_ok m n n) by (assumption || lia). rewrite H by lia. rewrite Nat2Z.id. f_equal. apply mn_diag. Qed.

Lemma state_elim a k m den : state a k m den -> (k < n)%nat -> det (S k) a <> 0 ->
  exists m', eliminate (Z.of_nat n) (Z.of_nat k) (det (S k) a) den m = Ret m' /\ state a (S k) m' (det (S k) a) /\
    mget m' (Z.of_nat n - 1) (Z.of_nat n - 1) = Ret (if (S k =? n)%nat then det n a else mn a (S k) (n - 1) (n - 1)).
Proof.
  intros (S & Ed & Hd & H) Hk Hp.
  destruct (eliminate_ok m n (Z.of_nat k) (det (Datatypes.S k) a) den (fun i j => mn a (Datatypes.S k) (Z.to_nat i) (Z.to_nat j)) S ltac:(lia) Hd) as (m' & E & S' & H').
  - intros i j Hi Hj. rewrite !H by lia. rewrite Nat2Z.id, <- mn_diag, Ed. pose proof (@Mat_MC.bareiss_identity a k (Z.to_nat i) (Z.to_nat j)) as B. rewrite <- Ed in B. specialize (B Hd). unfold mn. rewrite <- Ed, B. reflexivity.
  - exists m'. split; [exact E|]. split.
    + split; [exact S'|]. split; [reflexivity|]. split; [exact Hp|]. intros i j Hi Hj. rewrite H' by lia. destruct (Z.ltb_spec (Z.of_nat k) i); [|lia]. destruct (Z.ltb_spec (Z.of_nat k) j); [|lia]. reflexivity.
    + rewrite (mget_ok m' n n) by (assumption || lia). rewrite H' by lia. f_equal. destruct (Nat.eqb_spec (Datatypes.S k) n) as [En|En].
      * destruct (Z.ltb_spec (Z.of_nat k) (Z.of_nat n - 1)); [lia|]. cbn [andb]. rewrite H by lia. replace (Z.to_nat (Z.of_nat n - 1)) with k by lia. rewrite mn_diag, En. reflexivity.
      * destruct (Z.ltb_spec (Z.of_nat k) (Z.of_nat n - 1)); [|lia]. cbn [andb]. replace (Z.to_nat (Z.of_nat n - 1)) with (n - 1)%nat by lia. reflexivity.
Qed.

Lemma rounds_ok : forall t k a m den sign iv, (t + k = n)%nat -> (1 <= t)%nat -> state a k m den -> ((k = n - 1)%nat -> iv = Some (Z.of_nat n - 1)) ->
  exists d m', det_rounds (Z.of_nat n) (zrange (Z.of_nat k) (Z.of_nat n)) m den sign iv = Ret (d, m') /\ shape m' n n /\
    (d <> 0 -> d = sign * det n a) /\ ((forall j, (k < j < n)%nat -> det j a <> 0) -> d = sign * det n a).
Proof.
  induction t as [|t IH]; intros k a m den sign iv Hk Ht St Hiv; [lia|]. rewrite zrange_cons by lia. cbn [det_rounds]. rewrite (state_pivot a k m den St ltac:(lia)). cbn [bind].
  assert (Next : forall a' m1 sign' iv', state a' k m1 den -> det (S k) a' <> 0 -> sign' * det n a' = sign * det n a -> ((forall j, (k < j < n)%nat -> det j a <> 0) -> a' = a) ->
    exists d m', (do m2 <- eliminate (Z.of_nat n) (Z.of_nat k) (det (S k) a') den m1; det_rounds (Z.of_nat n) (zrange (Z.of_nat k + 1) (Z.of_nat n)) m2 (det (S k) a') sign' (after_loop (Z.of_nat k + 1) (Z.of_nat n) iv')) = Ret (d, m') /\ shape m' n n /\
    (d <> 0 -> d = sign * det n a) /\ ((forall j, (k < j < n)%nat -> det j a <> 0) -> d = sign * det n a)).
  { intros a' m1 sign' iv' St' Hp Hs Ha. destruct (state_elim a' k m1 den St' ltac:(lia) Hp) as (m2 & E & St2 & L). rewrite E. cbn [bind]. replace (Z.of_nat k + 1) with (Z.of_nat (S k)) by lia. destruct (Nat.eq_dec t 0) as [T|T].
    - rewrite zrange_nil by lia. cbn [det_rounds]. rewrite L. cbn [bind]. replace (S k =? n)%nat with true by (symmetry; apply Nat.eqb_eq; lia). exists (sign' * det n a'), m2. split; [reflexivity|]. split; [destruct St2; assumption|]. rewrite Hs. split; intros; reflexivity.
    - destruct (IH (S k) a' m2 (det (S k) a') sign' (after_loop (Z.of_nat (S k)) (Z.of_nat n) iv') ltac:(lia) ltac:(lia) St2) as (d & m' & E' & S' & H1 & H2).
      + intros Hl. unfold after_loop. destruct (Z.ltb_spec (Z.of_nat (S k)) (Z.of_nat n)); [reflexivity|lia].
      + exists d, m'. split; [exact E'|]. split; [exact S'|]. rewrite <- Hs. split; [exact H1|]. intros Hall. apply H2. rewrite (Ha Hall). intros j Hj. apply Hall. lia. }
  destruct (Z.eqb_spec (det (S k) a) 0) as [P|P].
  - assert (D0 : (forall j, (k < j < n)%nat -> det j a <> 0) -> k = (n - 1)%nat). { intros Hall. destruct (Nat.eq_dec k (n - 1)) as [|Hn]; [assumption|]. exfalso. apply (Hall (S k)); [lia|exact P]. }
    assert (Stop : forall m1, shape m1 n n -> exists d m', Ret (0, m1) = Ret (d, m') /\ shape m' n n /\ (d <> 0 -> d = sign * det n a) /\ ((forall j, (k < j < n)%nat -> det j a <> 0) -> d = sign * det n a)).
    { intros m1 S1. exists 0, m1. split; [reflexivity|]. split; [exact S1|]. split; [lia|]. intros Hall. replace n with (S k) by (specialize (D0 Hall); lia). rewrite P. lia. }
    destruct St as (Sm & Ed & Hd & H) eqn:ESt. destruct (Nat.eq_dec k (n - 1)) as [K|K].
    + rewrite zrange_nil by lia. cbn [find_row bind]. rewrite (Hiv K). rewrite Z.eqb_refl. apply Stop. exact Sm.
    + destruct (find_row_ok m n (Z.of_nat k) Sm ltac:(lia) (n - S k)%nat (Z.of_nat k + 1) iv ltac:(lia) ltac:(lia) ltac:(lia)) as (i & E & Hi & Hn). rewrite E. cbn [bind].
      destruct (Z.eqb_spec i (Z.of_nat n - 1)) as [I|I]; [apply Stop; exact Sm|]. specialize (Hn ltac:(lia)).
      destruct (swap_ok m n (Z.of_nat k) i Sm ltac:(lia) ltac:(lia)) as (m1 & E1 & S1 & H1). rewrite E1. cbn [bind].
      set (i' := Z.to_nat i). set (sw := fun x : nat => if (x =? k)%nat then i' else if (x =? i')%nat then k else x). set (a1 := fun x y => a (sw x) y).
      assert (Sw : forall x, (x < k)%nat -> sw x = x). { intros x Hx. unfold sw. destruct (Nat.eqb_spec x k); [lia|]. destruct (Nat.eqb_spec x i'); [unfold i' in *; lia|reflexivity]. }
      assert (Mn : forall x y, (k <= x)%nat -> mn a1 k x y = mn a k (sw x) y). { intros x y Hx. unfold mn, Mat_MC.minor. apply Mat_MC.det_ext. intros u v Hu Hv. unfold a1. destruct (Nat.ltb_spec u k); [rewrite Sw by assumption|]; reflexivity. }
      assert (Dk : det k a1 = det k a). { apply Mat_MC.det_ext. intros x y Hx Hy. unfold a1. rewrite Sw by exact Hx. reflexivity. }
      assert (St1 : state a1 k m1 den).
      { split; [exact S1|]. split; [rewrite Dk; exact Ed|]. split; [exact Hd|]. intros x y Hx Hy. rewrite H1 by lia. rewrite H; [|destruct (Z.eqb_spec x (Z.of_nat k)); [lia|]; destruct (Z.eqb_spec x i); lia|exact Hy]. rewrite Mn by lia. f_equal. unfold sw, i'. destruct (Z.eqb_spec x (Z.of_nat k)), (Nat.eqb_spec (Z.to_nat x) k); try lia. destruct (Z.eqb_spec x i), (Nat.eqb_spec (Z.to_nat x) (Z.to_nat i)); lia. }
      assert (P1 : det (S k) a1 <> 0). { rewrite <- mn_diag. rewrite Mn by lia. unfold sw. rewrite Nat.eqb_refl. rewrite H in Hn by lia. rewrite Nat2Z.id in Hn. exact Hn. }
      rewrite (state_pivot a1 k m1 den St1 ltac:(lia)). cbn [bind]. apply (Next a1 m1 (sign * -1) (Some i) St1 P1).
      * assert (Sg : det n a1 = - det n a). { unfold a1, sw. rewrite (@Mat_MC.det_swap n a k i'); [reflexivity|lia|unfold i'; lia|unfold i'; lia]. } rewrite Sg. lia.
      * intros Hall. exfalso. specialize (D0 Hall). lia.
  - apply (Next a m sign iv St P eq_refl). reflexivity.
Qed.

Lemma determinant_ok M : shape M n n ->
  exists d M', determinant M = Ret (d, M') /\ shape M' n n /\ (d <> 0 -> d = det n (ent M)) /\ ((forall j, (0 < j < n)%nat -> det j (ent M) <> 0) -> d = det n (ent M)).
Proof.
  intros S. unfold determinant. rewrite (shape_nrows M n n S), (shape_ncols M n n S) by lia. rewrite Z.eqb_refl. cbn [negb].
  destruct (rounds_ok n 0 (ent M) M 1 1 None ltac:(lia) ltac:(lia)) as (d & M' & E & S' & H1 & H2).
  - split; [exact S|]. split; [reflexivity|]. split; [lia|]. intros i j _ _. rewrite mn_0. reflexivity.
  - lia.
  - exists d, M'. split; [exact E|]. split; [exact S'|]. rewrite Z.mul_1_l in *. auto.
Qed.
End Rounds.

Lemma determinant_1 x : x <> 0 -> determinant [[x]] = Ret (x, [[x]]).
Proof.
  intros H. unfold determinant. change (nrows [[x]]) with 1. change (ncols [[x]]) with 1. cbn [Z.eqb Pos.eqb negb]. change (zrange 0 1) with [0]. cbn [det_rounds].
  change (mget [[x]] 0 0) with (Ret x). cbn [bind]. destruct (Z.eqb_spec x 0); [contradiction|]. change (eliminate 1 0 x 1 [[x]]) with (Ret [[x]]). cbn [bind det_rounds].
  change (mget [[x]] (1 - 1) (1 - 1)) with (Ret x). cbn [bind]. rewrite Z.mul_1_l. reflexivity.
Qed.
