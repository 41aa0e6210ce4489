(** * Sums over ranges, loops over ranges, lists as arrays of integers *)
From Coq Require Import ZArith List Lia Bool.
From Verif Require Import Base.
Import ListNotations.
Open Scope Z_scope.

(** The sum of f(i) for a <= i < b. *)
Definition Sum (a b : Z) (f : Z -> Z) : Z := zsum (map f (zrange a b)).

Lemma Sum_nil a b f : b <= a -> Sum a b f = 0.
Proof. intros H. unfold Sum. rewrite zrange_nil by exact H. reflexivity. Qed.
Lemma Sum_first a b f : a < b -> Sum a b f = f a + Sum (a + 1) b f.
Proof. intros H. unfold Sum. rewrite zrange_cons by exact H. reflexivity. Qed.
Lemma Sum_app a b c f : a <= b <= c -> Sum a c f = Sum a b f + Sum b c f.
Proof. intros H. unfold Sum. rewrite (zrange_app a b c H), map_app, zsum_app. reflexivity. Qed.
Lemma Sum_one a f : Sum a (a + 1) f = f a.
Proof. rewrite Sum_first, Sum_nil by lia. lia. Qed.
Lemma Sum_last a b f : a <= b -> Sum a (b + 1) f = Sum a b f + f b.
Proof. intros H. rewrite (Sum_app a b (b + 1)) by lia. rewrite Sum_one. reflexivity. Qed.

(** Induction on the right end. *)
Lemma right_end (P : Z -> Prop) a : (forall b, b <= a -> P b) -> (forall b, a <= b -> P b -> P (b + 1)) -> forall b, P b.
Proof.
  intros H0 HS b. destruct (Z.le_gt_cases b a) as [L|L]; [apply H0, L|]. replace b with (a + Z.of_nat (Z.to_nat (b - a))) by lia.
  induction (Z.to_nat (b - a)) as [|n IH]; [apply H0; lia|]. replace (a + Z.of_nat (S n)) with (a + Z.of_nat n + 1) by lia. apply HS; [lia|exact IH].
Qed.

Lemma Sum_ext a b f h : (forall i, a <= i < b -> f i = h i) -> Sum a b f = Sum a b h.
Proof. intros H. unfold Sum. f_equal. apply map_ext_in. intros i Hi. apply H, zrange_In, Hi. Qed.
Lemma Sum_zero a b f : (forall i, a <= i < b -> f i = 0) -> Sum a b f = 0.
Proof.
  revert b. apply (right_end (fun b => (forall i, a <= i < b -> f i = 0) -> Sum a b f = 0) a); intros b L.
  - intros _. apply Sum_nil, L.
  - intros IH H. rewrite Sum_last by exact L. rewrite IH by (intros; apply H; lia). rewrite H by lia. reflexivity.
Qed.
Lemma Sum_plus a b f h : Sum a b (fun i => f i + h i) = Sum a b f + Sum a b h.
Proof.
  revert b. apply (right_end (fun b => Sum a b (fun i => f i + h i) = Sum a b f + Sum a b h) a); intros b L.
  - rewrite !Sum_nil by exact L. reflexivity.
  - intros IH. rewrite !Sum_last by exact L. rewrite IH. lia.
Qed.
Lemma Sum_minus a b f h : Sum a b (fun i => f i - h i) = Sum a b f - Sum a b h.
Proof.
  revert b. apply (right_end (fun b => Sum a b (fun i => f i - h i) = Sum a b f - Sum a b h) a); intros b L.
  - rewrite !Sum_nil by exact L. reflexivity.
  - intros IH. rewrite !Sum_last by exact L. rewrite IH. lia.
Qed.
Lemma Sum_mul a b c f : Sum a b (fun i => c * f i) = c * Sum a b f.
Proof.
  revert b. apply (right_end (fun b => Sum a b (fun i => c * f i) = c * Sum a b f) a); intros b L.
  - rewrite !Sum_nil by exact L. lia.
  - intros IH. rewrite !Sum_last by exact L. rewrite IH. lia.
Qed.
Lemma Sum_mul_r a b c f : Sum a b (fun i => f i * c) = Sum a b f * c.
Proof. rewrite (Z.mul_comm _ c), <- Sum_mul. apply Sum_ext. intros; apply Z.mul_comm. Qed.
Lemma Sum_shift a b k f : Sum a b (fun i => f (i + k)) = Sum (a + k) (b + k) f.
Proof.
  revert b. apply (right_end (fun b => Sum a b (fun i => f (i + k)) = Sum (a + k) (b + k) f) a); intros b L.
  - rewrite !Sum_nil by lia. reflexivity.
  - intros IH. replace (b + 1 + k) with (b + k + 1) by lia. rewrite !Sum_last by lia. rewrite IH. reflexivity.
Qed.
Lemma Sum_swap a b c d (f : Z -> Z -> Z) : Sum a b (fun i => Sum c d (f i)) = Sum c d (fun j => Sum a b (fun i => f i j)).
Proof.
  revert b. apply (right_end (fun b => Sum a b (fun i => Sum c d (f i)) = Sum c d (fun j => Sum a b (fun i => f i j))) a); intros b L.
  - rewrite Sum_nil by exact L. symmetry. apply Sum_zero. intros; apply Sum_nil, L.
  - intros IH. rewrite Sum_last by exact L. rewrite IH, <- Sum_plus. apply Sum_ext. intros j _. rewrite Sum_last by exact L. reflexivity.
Qed.
Lemma Sum_pick a b k f : a <= k < b -> (forall i, a <= i < b -> i <> k -> f i = 0) -> Sum a b f = f k.
Proof.
  intros H Z0. rewrite (Sum_app a k b) by lia. rewrite (Sum_zero a k) by (intros; apply Z0; lia). rewrite Sum_first by lia.
  rewrite (Sum_zero (k + 1) b) by (intros; apply Z0; lia). lia.
Qed.
Lemma Sum_rev a b f : Sum a b (fun i => f (a + b - 1 - i)) = Sum a b f.
Proof.
  assert (G : forall k, 0 <= k -> forall a f, Sum a (a + k) (fun i => f (a + (a + k) - 1 - i)) = Sum a (a + k) f).
  { intros k Hk. pattern k. apply natlike_ind; [|clear k Hk|exact Hk].
    - intros. rewrite !Sum_nil by lia. reflexivity.
    - intros k Hk IH a' f'. rewrite Sum_first by lia. replace (a' + Z.succ k) with (a' + k + 1) by lia. rewrite (Sum_last a' (a' + k) f') by lia.
      replace (a' + (a' + k + 1) - 1 - a') with (a' + k) by lia. replace (a' + k + 1) with (a' + 1 + k) by lia.
      rewrite <- (IH a' f'). replace (a' + 1 + k) with (a' + k + 1) by lia. rewrite <- (Sum_shift a' (a' + k) 1 (fun i => f' (a' + (a' + k + 1) - 1 - i))).
      rewrite Z.add_comm. f_equal. apply Sum_ext. intros i Hi. f_equal. lia. }
  destruct (Z.le_gt_cases b a) as [L|L]; [rewrite !Sum_nil by exact L; reflexivity|]. replace b with (a + (b - a)) by lia. apply G. lia.
Qed.
Lemma Sum_extend a b b' f : a <= b <= b' -> (forall i, b <= i < b' -> f i = 0) -> Sum a b' f = Sum a b f.
Proof. intros H Z0. rewrite (Sum_app a b b' f H). rewrite (Sum_zero b b') by exact Z0. lia. Qed.

(** A for loop over a range, upwards and downwards. *)
Lemma foldM_range {S} (f : S -> Z -> outcome S) (I : Z -> S -> Prop) a b s : a <= b -> I a s ->
  (forall x s, a <= x < b -> I x s -> exists s', f s x = Ret s' /\ I (x + 1) s') -> exists s', foldM f (zrange a b) s = Ret s' /\ I b s'.
Proof.
  intros L. replace b with (a + Z.of_nat (Z.to_nat (b - a))) by lia. generalize (Z.to_nat (b - a)) as n. clear L b. intros n. revert a s.
  induction n as [|n IH]; intros a s H0 HS.
  - rewrite zrange_nil by lia. exists s. split; [reflexivity|]. replace (a + Z.of_nat 0) with a by lia. exact H0.
  - rewrite zrange_cons by lia. cbn [foldM]. destruct (HS a s ltac:(lia) H0) as (s1 & E & H1). rewrite E. cbn [bind].
    replace (a + Z.of_nat (Datatypes.S n)) with (a + 1 + Z.of_nat n) in * by lia. apply IH; [exact H1|]. intros x t Hx Ht. apply HS; [lia|exact Ht].
Qed.
Lemma foldM_range_down {S} (f : S -> Z -> outcome S) (I : Z -> S -> Prop) a b s : a <= b -> I b s ->
  (forall x s, a <= x < b -> I (x + 1) s -> exists s', f s x = Ret s' /\ I x s') -> exists s', foldM f (rev (zrange a b)) s = Ret s' /\ I a s'.
Proof.
  intros L. replace b with (a + Z.of_nat (Z.to_nat (b - a))) by lia. generalize (Z.to_nat (b - a)) as n. clear L b. intros n. revert s.
  induction n as [|n IH]; intros s H0 HS.
  - rewrite zrange_nil by lia. exists s. split; [reflexivity|]. replace a with (a + Z.of_nat 0) by lia. exact H0.
  - replace (a + Z.of_nat (Datatypes.S n)) with (a + Z.of_nat n + 1) in * by lia. rewrite zrange_snoc by lia. rewrite rev_app_distr. cbn [rev app foldM].
    destruct (HS (a + Z.of_nat n) s ltac:(lia) H0) as (s1 & E & H1). rewrite E. cbn [bind]. apply IH; [exact H1|]. intros x t Hx Ht. apply HS; [lia|exact Ht].
Qed.

(** The entry i of a list of integers, 0 outside. *)
Definition rd (l : list Z) (i : Z) : Z := if i <? 0 then 0 else nth (Z.to_nat i) l 0.
Definition zlen (l : list Z) : Z := Z.of_nat (length l).

Lemma rd_out l i : i < 0 \/ zlen l <= i -> rd l i = 0.
Proof. intros H. unfold rd, zlen in *. destruct (Z.ltb_spec i 0); [reflexivity|]. apply nth_overflow. lia. Qed.
Lemma rd_get l i : 0 <= i < zlen l -> pyget l i = Ret (rd l i).
Proof. intros H. unfold rd. destruct (Z.ltb_spec i 0); [lia|]. apply pyget_nth. exact H. Qed.
Lemma rd_set l i x : 0 <= i < zlen l -> exists l', pyset l i x = Ret l' /\ zlen l' = zlen l /\ forall j, rd l' j = if j =? i then x else rd l j.
Proof.
  intros H. exists (upd l (Z.to_nat i) x). split; [apply pyset_upd, H|]. split; [unfold zlen; rewrite upd_length; reflexivity|]. intros j. unfold rd.
  destruct (Z.ltb_spec j 0); [destruct (Z.eqb_spec j i); [lia|reflexivity]|]. rewrite upd_nth by (unfold zlen in H; lia).
  destruct (Nat.eqb_spec (Z.to_nat j) (Z.to_nat i)), (Z.eqb_spec j i); try lia; reflexivity.
Qed.
Lemma rd_ext l l' : zlen l = zlen l' -> (forall i, 0 <= i < zlen l -> rd l i = rd l' i) -> l = l'.
Proof.
  intros L H. unfold zlen in *. apply (nth_ext l l' 0 0); [lia|]. intros n Hn. specialize (H (Z.of_nat n) ltac:(lia)). unfold rd in H.
  destruct (Z.ltb_spec (Z.of_nat n) 0); [lia|]. rewrite Nat2Z.id in H. exact H.
Qed.
Lemma rd_repeat n i : rd (repeat 0 n) i = 0.
Proof. unfold rd. destruct (i <? 0); [reflexivity|]. generalize (Z.to_nat i). induction n; intros [|k]; cbn; auto. Qed.
Lemma zlen_repeat n (x : Z) : zlen (repeat x n) = Z.of_nat n.
Proof. unfold zlen. rewrite repeat_length. reflexivity. Qed.
Lemma rd_app l l' i : rd (l ++ l') i = if i <? zlen l then rd l i else rd l' (i - zlen l).
Proof.
  unfold rd, zlen. destruct (Z.ltb_spec i 0), (Z.ltb_spec i (Z.of_nat (length l))), (Z.ltb_spec (i - Z.of_nat (length l)) 0); try lia; try reflexivity.
  - apply app_nth1. lia.
  - rewrite app_nth2 by lia. f_equal. lia.
Qed.
Lemma zlen_app l l' : zlen (l ++ l') = zlen l + zlen l'.
Proof. unfold zlen. rewrite app_length. lia. Qed.
Lemma rd_firstn l k i : 0 <= k -> rd (firstn (Z.to_nat k) l) i = if i <? k then rd l i else 0.
Proof.
  intros Hk. destruct (Z.ltb_spec i k) as [L|L].
  - unfold rd. destruct (Z.ltb_spec i 0); [reflexivity|]. assert (G : forall n m l, (m < n)%nat -> nth m (firstn n l) 0 = nth m l 0).
    { induction n; intros [|m] [|x t] Hm; cbn; try lia; try reflexivity. apply IHn. lia. } apply G. lia.
  - apply rd_out. right. unfold zlen. pose proof (firstn_le_length (Z.to_nat k) l). lia.
Qed.
Lemma zlen_firstn l k : 0 <= k -> zlen (firstn (Z.to_nat k) l) = Z.min k (zlen l).
Proof. intros H. unfold zlen. rewrite firstn_length. lia. Qed.
Lemma rd_skipn l k i : 0 <= k -> 0 <= i -> rd (skipn (Z.to_nat k) l) i = rd l (i + k).
Proof.
  intros Hk Hi. unfold rd. destruct (Z.ltb_spec i 0); [lia|]. destruct (Z.ltb_spec (i + k) 0); [lia|]. replace (Z.to_nat (i + k)) with (Z.to_nat k + Z.to_nat i)%nat by lia.
  generalize (Z.to_nat k) (Z.to_nat i). clear. intros n m. revert l. induction n; intros l; [reflexivity|]. destruct l; cbn; [destruct m; reflexivity|apply IHn].
Qed.
Lemma zlen_skipn l k : 0 <= k -> zlen (skipn (Z.to_nat k) l) = Z.max 0 (zlen l - k).
Proof. intros H. unfold zlen. rewrite skipn_length. lia. Qed.
Lemma zlen_nonneg l : 0 <= zlen l. Proof. unfold zlen. lia. Qed.
Lemma rd_map h l i : h 0 = 0 -> rd (map h l) i = h (rd l i).
Proof. intros H. unfold rd. destruct (i <? 0); [auto|]. rewrite <- H at 1. apply map_nth. Qed.
Lemma zlen_map h l : zlen (map h l) = zlen l. Proof. unfold zlen. rewrite map_length. reflexivity. Qed.
