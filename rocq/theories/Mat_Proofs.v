(** * Matrices: entrywise operations, products *)
From Coq Require Import ZArith List Lia Bool.
From Verif Require Import Base Py Lists Sums Mat_Spec Mat_Model.
Import ListNotations.
Open Scope Z_scope.

Definition en (M : matrix) (i j : Z) : Z := ent M (Z.to_nat i) (Z.to_nat j).

Lemma shape_row M r c i : shape M r c -> (i < r)%nat -> length (nth i M []) = c.
Proof. intros (L & H) Hi. apply H, nth_In. lia. Qed.

Lemma mget_ok M r c i j : shape M r c -> 0 <= i < Z.of_nat r -> 0 <= j < Z.of_nat c -> mget M i j = Ret (en M i j).
Proof.
  intros S Hi Hj. unfold mget. rewrite (pyget_nth M i []) by (destruct S as (-> & _); exact Hi). cbn [bind].
  rewrite (pyget_nth _ j 0); [reflexivity|]. rewrite (shape_row M r c _ S) by lia. exact Hj.
Qed.

Lemma shape_upd M r c i row : shape M r c -> length row = c -> shape (upd M i row) r c.
Proof.
  intros (L & H) Hr. split; [rewrite upd_length; exact L|]. clear L. revert i H. induction M as [|a M IH]; intros i H x Hx; [destruct i; contradiction|].
  destruct i as [|i]; cbn [upd] in Hx; destruct Hx as [<-|Hx]; [exact Hr|apply H; right; exact Hx|apply H; left; reflexivity|]. apply (IH i); [|exact Hx]. intros y Hy. apply H. right. exact Hy.
Qed.

Lemma mset_ok M r c i j v : shape M r c -> 0 <= i < Z.of_nat r -> 0 <= j < Z.of_nat c ->
  exists M', mset M i j v = Ret M' /\ shape M' r c /\ forall x y, 0 <= x -> 0 <= y -> en M' x y = if (x =? i) && (y =? j) then v else en M x y.
Proof.
  intros S Hi Hj. unfold mset. assert (Li : 0 <= i < Z.of_nat (length M)) by (destruct S as (-> & _); exact Hi). rewrite (pyget_nth M i []) by exact Li. cbn [bind].
  assert (Lr : length (nth (Z.to_nat i) M []) = c) by (apply (shape_row M r c _ S); lia). rewrite pyset_upd by (rewrite Lr; exact Hj). cbn [bind]. rewrite pyset_upd by exact Li.
  eexists. split; [reflexivity|]. split; [apply shape_upd; [exact S|rewrite upd_length; exact Lr]|]. intros x y Hx Hy. unfold en, ent. rewrite upd_nth by lia.
  destruct (Nat.eqb_spec (Z.to_nat x) (Z.to_nat i)) as [E|E], (Z.eqb_spec x i) as [E'|E']; cbn [andb]; try lia. subst x.
  rewrite upd_nth by lia. destruct (Nat.eqb_spec (Z.to_nat y) (Z.to_nat j)), (Z.eqb_spec y j); try lia.
Qed.

Lemma mset_row M i j v : Z.of_nat (length M) <= i -> mset M i j v = Raise IndexError.
Proof. intros H. unfold mset, pyget, pyidx. destruct (Z.ltb_spec i (Z.of_nat (length M))); [lia|]. rewrite andb_false_r. destruct (Z.ltb_spec i 0); [lia|]. rewrite andb_false_r. reflexivity. Qed.
Lemma mset_col M r c i j v : shape M r c -> 0 <= i < Z.of_nat r -> Z.of_nat c <= j -> mset M i j v = Raise IndexError.
Proof.
  intros S Hi Hj. unfold mset. rewrite (pyget_nth M i []) by (destruct S as (-> & _); exact Hi). cbn [bind]. assert (Lr : length (nth (Z.to_nat i) M []) = c) by (apply (shape_row M r c _ S); lia).
  unfold pyset, pyidx. rewrite Lr. destruct (Z.ltb_spec j (Z.of_nat c)); [lia|]. rewrite andb_false_r. destruct (Z.ltb_spec j 0); [lia|]. rewrite andb_false_r. reflexivity.
Qed.

Lemma zero_shape r c : 0 <= r -> 0 <= c -> shape (zero_matrix r c) (Z.to_nat r) (Z.to_nat c).
Proof. intros Hr Hc. split; [apply repeat_length|]. intros row H. apply repeat_spec in H. subst. apply repeat_length. Qed.

(** The inner loop. *)
Lemma fill_row M r c i n f g : shape M r c -> 0 <= i < Z.of_nat r -> 0 <= n <= Z.of_nat c -> (forall j, 0 <= j < n -> f i j = Ret (g j)) ->
  exists M', foldM (fun R j => do v <- f i j; mset R i j v) (zrange 0 n) M = Ret M' /\ shape M' r c /\
    forall x y, 0 <= x -> 0 <= y -> en M' x y = if (x =? i) && (y <? n) then g y else en M x y.
Proof.
  intros S Hi Hn Hf. destruct (foldM_range (fun R j => do v <- f i j; mset R i j v) (fun b R => shape R r c /\ forall x y, 0 <= x -> 0 <= y -> en R x y = if (x =? i) && (y <? b) then g y else en M x y) 0 n M ltac:(lia)) as (M' & E & S' & H).
  - split; [exact S|]. intros x y Hx Hy. destruct (Z.ltb_spec y 0); [lia|]. rewrite andb_false_r. reflexivity.
  - intros j R Hj (SR & HR). rewrite Hf by exact Hj. cbn [bind]. destruct (mset_ok R r c i j (g j) SR Hi ltac:(lia)) as (R' & E & S' & H). exists R'. split; [exact E|]. split; [exact S'|].
    intros x y Hx Hy. rewrite H, HR by assumption. destruct (Z.eqb_spec x i), (Z.eqb_spec y j), (Z.ltb_spec y j), (Z.ltb_spec y (j + 1)); subst; cbn [andb]; try lia; reflexivity.
  - exists M'. auto.
Qed.

Lemma fill_ok M r c n m f g : shape M r c -> 0 <= n <= Z.of_nat r -> 0 <= m <= Z.of_nat c -> (forall i j, 0 <= i < n -> 0 <= j < m -> f i j = Ret (g i j)) ->
  exists M', fill n m f M = Ret M' /\ shape M' r c /\ forall x y, 0 <= x -> 0 <= y -> en M' x y = if (x <? n) && (y <? m) then g x y else en M x y.
Proof.
  intros S Hn Hm Hf. unfold fill. destruct (foldM_range (fun R i => foldM (fun R j => do v <- f i j; mset R i j v) (zrange 0 m) R)
    (fun b R => shape R r c /\ forall x y, 0 <= x -> 0 <= y -> en R x y = if (x <? b) && (y <? m) then g x y else en M x y) 0 n M ltac:(lia)) as (M' & E & S' & H).
  - split; [exact S|]. intros x y Hx Hy. destruct (Z.ltb_spec x 0); [lia|reflexivity].
  - intros i R Hi (SR & HR). destruct (fill_row R r c i m f (g i) SR ltac:(lia) Hm ltac:(intros; apply Hf; lia)) as (R' & E & S' & H). exists R'. split; [exact E|]. split; [exact S'|].
    intros x y Hx Hy. rewrite H, HR by assumption. destruct (Z.eqb_spec x i), (Z.ltb_spec x i), (Z.ltb_spec x (i + 1)), (Z.ltb_spec y m); subst; cbn [andb]; try lia; reflexivity.
  - exists M'. auto.
Qed.

Lemma shape_nrows M r c : shape M r c -> nrows M = Z.of_nat r. Proof. intros (E & _). unfold nrows. rewrite E. reflexivity. Qed.
Lemma shape_ncols M r c : shape M r c -> (0 < r)%nat -> ncols M = Z.of_nat c.
Proof. intros (L & H) Hr. unfold ncols. destruct M as [|a M]; [cbn in L; lia|]. cbn [hd]. rewrite (H a) by (left; reflexivity). reflexivity. Qed.
Lemma shape_new M r c : shape M r c -> (0 < r)%nat -> new_matrix M = Ret M.
Proof. intros (L & _) Hr. destruct M; [cbn in L; lia|reflexivity]. Qed.

(** A result with one entry for each entry of A. *)
Lemma entrywise A r c f g : shape A r c -> (0 < r)%nat -> (forall i j, 0 <= i < Z.of_nat r -> 0 <= j < Z.of_nat c -> f i j = Ret (g i j)) ->
  exists R, (do R <- fill (nrows A) (ncols A) f (zero_matrix (nrows A) (ncols A)); new_matrix R) = Ret R /\ shape R r c /\
    forall i j, (i < r)%nat -> (j < c)%nat -> ent R i j = g (Z.of_nat i) (Z.of_nat j).
Proof.
  intros S Hr Hf. rewrite (shape_nrows A r c S), (shape_ncols A r c S Hr). pose proof (zero_shape (Z.of_nat r) (Z.of_nat c) ltac:(lia) ltac:(lia)) as SZ. rewrite !Nat2Z.id in SZ.
  destruct (fill_ok (zero_matrix (Z.of_nat r) (Z.of_nat c)) r c (Z.of_nat r) (Z.of_nat c) f g SZ ltac:(lia) ltac:(lia) Hf) as (R & E & SR & H). rewrite E. cbn [bind]. rewrite (shape_new R r c SR Hr).
  exists R. split; [reflexivity|]. split; [exact SR|]. intros i j Hi Hj. specialize (H (Z.of_nat i) (Z.of_nat j) ltac:(lia) ltac:(lia)). unfold en in H. rewrite !Nat2Z.id in H. rewrite H.
  destruct (Z.ltb_spec (Z.of_nat i) (Z.of_nat r)); [|lia]. destruct (Z.ltb_spec (Z.of_nat j) (Z.of_nat c)); [reflexivity|lia].
Qed.

Lemma product_entry A B r k c i j : shape A r k -> shape B k c -> 0 <= i < Z.of_nat r -> 0 <= j < Z.of_nat c ->
  foldM (fun total k => do x <- mget A i k; do y <- mget B k j; Ret (total + x * y)) (zrange 0 (Z.of_nat k)) 0 = Ret (Sum 0 (Z.of_nat k) (fun t => en A i t * en B t j)).
Proof.
  intros SA SB Hi Hj. destruct (foldM_range (fun total k => do x <- mget A i k; do y <- mget B k j; Ret (total + x * y)) (fun b s => s = Sum 0 b (fun t => en A i t * en B t j)) 0 (Z.of_nat k) 0 ltac:(lia)) as (s & E & ->).
  - rewrite Sum_nil by lia. reflexivity.
  - intros x s Hx ->. rewrite (mget_ok A r k i x SA Hi Hx), (mget_ok B k c x j SB Hx Hj). cbn [bind]. eexists. split; [reflexivity|]. rewrite Sum_last by lia. reflexivity.
  - exact E.
Qed.

Lemma Sum_nat n f : Sum 0 (Z.of_nat n) f = zsum (map (fun t => f (Z.of_nat t)) (seq 0 n)).
Proof.
  induction n as [|n IH]; [reflexivity|]. rewrite Nat2Z.inj_succ, seq_S, map_app, zsum_app. unfold Z.succ. rewrite Sum_last by lia. rewrite IH. cbn. lia.
Qed.

Lemma m_mul_square A B n k : shape A n k -> shape B k n -> (0 < n)%nat -> (0 < k)%nat ->
  exists R, m_mul A B = Ret R /\ shape R n n /\ forall i j, (i < n)%nat -> (j < n)%nat -> ent R i j = zsum (map (fun t => ent A i t * ent B t j) (seq 0 k)).
Proof.
  intros SA SB Hn Hk. unfold m_mul. rewrite (shape_nrows A n k SA), (shape_ncols A n k SA Hn), (shape_nrows B k n SB), (shape_ncols B k n SB Hk), Z.eqb_refl. cbn [negb].
  pose proof (zero_shape (Z.of_nat n) (Z.of_nat n) ltac:(lia) ltac:(lia)) as SZ. rewrite !Nat2Z.id in SZ.
  match goal with |- context [fill _ _ ?F _] => destruct (fill_ok (zero_matrix (Z.of_nat n) (Z.of_nat n)) n n (Z.of_nat n) (Z.of_nat n) F (fun i j => Sum 0 (Z.of_nat k) (fun t => en A i t * en B t j)) SZ ltac:(lia) ltac:(lia)) as (R & E & SR & H) end.
  - intros i j Hi Hj. apply (product_entry A B n k n); assumption.
  - rewrite E. cbn [bind]. rewrite (shape_new R n n SR Hn). exists R. split; [reflexivity|]. split; [exact SR|]. intros i j Hi Hj. specialize (H (Z.of_nat i) (Z.of_nat j) ltac:(lia) ltac:(lia)). unfold en in H at 1. rewrite !Nat2Z.id in H. rewrite H.
    destruct (Z.ltb_spec (Z.of_nat i) (Z.of_nat n)); [|lia]. destruct (Z.ltb_spec (Z.of_nat j) (Z.of_nat n)); [|lia]. cbn [andb]. rewrite Sum_nat. f_equal. apply map_ext. intros t. unfold en. rewrite !Nat2Z.id. reflexivity.
Qed.

(** Another shape: IndexError. *)
Lemma foldM_raise {A S} (f : S -> A -> outcome S) e xs y ys s s' : foldM f xs s = Ret s' -> f s' y = Raise e -> foldM f (xs ++ y :: ys) s = Raise e.
Proof. intros H E. rewrite foldM_app, H. cbn [bind foldM]. rewrite E. reflexivity. Qed.

Lemma m_mul_rect A B r k c : shape A r k -> shape B k c -> (0 < r)%nat -> (0 < k)%nat -> r <> c -> m_mul A B = Raise IndexError.
Proof.
  intros SA SB Hr Hk D. unfold m_mul. rewrite (shape_nrows A r k SA), (shape_ncols A r k SA Hr), (shape_nrows B k c SB), (shape_ncols B k c SB Hk), Z.eqb_refl. cbn [negb].
  pose proof (zero_shape (Z.of_nat c) (Z.of_nat r) ltac:(lia) ltac:(lia)) as SZ. rewrite !Nat2Z.id in SZ. set (F := fun i j : Z => foldM _ (zrange 0 (Z.of_nat k)) 0).
  assert (HF : forall i j, 0 <= i < Z.of_nat r -> 0 <= j < Z.of_nat c -> F i j = Ret (Sum 0 (Z.of_nat k) (fun t => en A i t * en B t j))) by (intros; apply (product_entry A B r k c); assumption).
  destruct (Nat.eq_dec c 0) as [E0|E0].
  { subst c. assert (E : fill (Z.of_nat r) (Z.of_nat 0) F (zero_matrix (Z.of_nat 0) (Z.of_nat r)) = Ret []); [|rewrite E; reflexivity]. unfold fill. cbn. induction (zrange 0 (Z.of_nat r)); [reflexivity|assumption]. }
  assert (E : fill (Z.of_nat r) (Z.of_nat c) F (zero_matrix (Z.of_nat c) (Z.of_nat r)) = Raise IndexError); [|rewrite E; reflexivity].
  destruct (Nat.lt_ge_cases r c) as [L|L].
  - unfold fill. rewrite (zrange_cons 0 (Z.of_nat r)) by lia. cbn [foldM]. rewrite (zrange_app 0 (Z.of_nat r) (Z.of_nat c)) by lia. rewrite (zrange_cons (Z.of_nat r) (Z.of_nat c)) by lia.
    destruct (fill_row (zero_matrix (Z.of_nat c) (Z.of_nat r)) c r 0 (Z.of_nat r) F (fun j => Sum 0 (Z.of_nat k) (fun t => en A 0 t * en B t j)) SZ ltac:(lia) ltac:(lia) ltac:(intros; apply HF; lia)) as (M' & E & SM & _).
    rewrite (foldM_raise _ IndexError _ _ _ _ M' E); [reflexivity|]. rewrite HF by lia. cbn [bind]. apply (mset_col M' c r); [exact SM|lia|lia].
  - unfold fill. rewrite (zrange_app 0 (Z.of_nat c) (Z.of_nat r)) by lia. rewrite (zrange_cons (Z.of_nat c) (Z.of_nat r)) by lia.
    destruct (fill_ok (zero_matrix (Z.of_nat c) (Z.of_nat r)) c r (Z.of_nat c) (Z.of_nat c) F (fun i j => Sum 0 (Z.of_nat k) (fun t => en A i t * en B t j)) SZ ltac:(lia) ltac:(lia) ltac:(intros; apply HF; lia)) as (M' & E & SM & _).
    apply (foldM_raise _ IndexError _ _ _ _ M' E). rewrite (zrange_cons 0) by lia. cbn [foldM]. rewrite HF by lia. cbn [bind]. rewrite mset_row; [reflexivity|]. destruct SM as (-> & _). lia.
Qed.

(** Deleting a row or a column. *)
Lemma drop_index_ok {A} (idx : nat) (l : list A) : drop_index (Z.of_nat idx) l = firstn idx l ++ skipn (S idx) l.
Proof.
  unfold drop_index. assert (G : forall (l : list A) a, map snd (filter (fun p => negb (fst p =? Z.of_nat idx)) (combine (zrange a (a + Z.of_nat (length l))) l)) =
    if (a <=? Z.of_nat idx) then firstn (Z.to_nat (Z.of_nat idx - a)) l ++ skipn (S (Z.to_nat (Z.of_nat idx - a))) l else l).
  { clear l. induction l as [|x l IH]; intros a.
    - rewrite zrange_nil by (cbn; lia). cbn [combine filter map]. destruct (a <=? Z.of_nat idx); [rewrite firstn_nil; reflexivity|reflexivity].
    - cbn [length]. rewrite zrange_cons by lia. cbn [combine filter fst]. replace (a + Z.of_nat (S (length l))) with (a + 1 + Z.of_nat (length l)) by lia. destruct (Z.eqb_spec a (Z.of_nat idx)) as [E|E]; cbn [negb map snd].
      + rewrite IH. destruct (Z.leb_spec (a + 1) (Z.of_nat idx)); [lia|]. destruct (Z.leb_spec a (Z.of_nat idx)); [|lia]. replace (Z.of_nat idx - a) with 0 by lia. reflexivity.
      + rewrite IH. destruct (Z.leb_spec (a + 1) (Z.of_nat idx)), (Z.leb_spec a (Z.of_nat idx)); try lia; [|reflexivity]. replace (Z.to_nat (Z.of_nat idx - a)) with (S (Z.to_nat (Z.of_nat idx - (a + 1)))) by lia. reflexivity. }
  specialize (G l 0). cbn [Z.add] in G. rewrite G. destruct (Z.leb_spec 0 (Z.of_nat idx)); [|lia]. rewrite Z.sub_0_r, Nat2Z.id. reflexivity.
Qed.
