(** * C52, C53: matrices *)
From Coq Require Import ZArith List Lia Bool.
From Verif Require Import Base Py Lists Sums Mat_Spec Mat_Model Mat_Proofs Mat_Proofs2.
Import ListNotations.
Open Scope Z_scope.

(** C52: sums, differences, negations and multiples are entry by entry. *)
Theorem C52_add A B r c : shape A r c -> shape B r c -> (0 < r)%nat ->
  exists R, m_add A B = Ret R /\ shape R r c /\ forall i j, (i < r)%nat -> (j < c)%nat -> ent R i j = ent A i j + ent B i j.
Proof.
  intros SA SB Hr. unfold m_add. match goal with |- context [fill _ _ ?F _] => destruct (entrywise A r c F (fun i j => en A i j + en B i j)) as (R & E & S & H); [exact SA|exact Hr| |exists R; split; [exact E|]; split; [exact S|]; intros i j Hi Hj; rewrite (H i j Hi Hj)] end.
  - intros i j Hi Hj. rewrite (mget_ok A r c i j SA Hi Hj), (mget_ok B r c i j SB Hi Hj). cbn [bind]. reflexivity.
  - unfold en. cbv beta. rewrite !Nat2Z.id. reflexivity.
Qed.
Print Assumptions C52_add.

Theorem C52_sub A B r c : shape A r c -> shape B r c -> (0 < r)%nat ->
  exists R, m_sub A B = Ret R /\ shape R r c /\ forall i j, (i < r)%nat -> (j < c)%nat -> ent R i j = ent A i j - ent B i j.
Proof.
  intros SA SB Hr. unfold m_sub. match goal with |- context [fill _ _ ?F _] => destruct (entrywise A r c F (fun i j => en A i j - en B i j)) as (R & E & S & H); [exact SA|exact Hr| |exists R; split; [exact E|]; split; [exact S|]; intros i j Hi Hj; rewrite (H i j Hi Hj)] end.
  - intros i j Hi Hj. rewrite (mget_ok A r c i j SA Hi Hj), (mget_ok B r c i j SB Hi Hj). cbn [bind]. reflexivity.
  - unfold en. cbv beta. rewrite !Nat2Z.id. reflexivity.
Qed.
Print Assumptions C52_sub.

Theorem C52_neg A r c : shape A r c -> (0 < r)%nat ->
  exists R, m_neg A = Ret R /\ shape R r c /\ forall i j, (i < r)%nat -> (j < c)%nat -> ent R i j = - ent A i j.
Proof.
  intros SA Hr. unfold m_neg. match goal with |- context [fill _ _ ?F _] => destruct (entrywise A r c F (fun i j => - en A i j)) as (R & E & S & H); [exact SA|exact Hr| |exists R; split; [exact E|]; split; [exact S|]; intros i j Hi Hj; rewrite (H i j Hi Hj)] end.
  - intros i j Hi Hj. rewrite (mget_ok A r c i j SA Hi Hj). cbn [bind]. reflexivity.
  - unfold en. cbv beta. rewrite !Nat2Z.id. reflexivity.
Qed.
Print Assumptions C52_neg.

Theorem C52_scale s A r c : shape A r c -> (0 < r)%nat ->
  exists R, m_scale s A = Ret R /\ shape R r c /\ forall i j, (i < r)%nat -> (j < c)%nat -> ent R i j = s * ent A i j.
Proof.
  intros SA Hr. unfold m_scale. match goal with |- context [fill _ _ ?F _] => destruct (entrywise A r c F (fun i j => s * en A i j)) as (R & E & S & H); [exact SA|exact Hr| |exists R; split; [rewrite E; reflexivity|]; split; [exact S|]; intros i j Hi Hj; rewrite (H i j Hi Hj)] end.
  - intros i j Hi Hj. rewrite (mget_ok A r c i j SA Hi Hj). cbn [bind]. reflexivity.
  - unfold en. cbv beta. rewrite !Nat2Z.id. reflexivity.
Qed.
Print Assumptions C52_scale.

(** The product of an n by k matrix and a k by n matrix. *)
Theorem C52_product A B n k : shape A n k -> shape B k n -> (0 < n)%nat -> (0 < k)%nat ->
  exists R, m_mul A B = Ret R /\ shape R n n /\
    forall i j, (i < n)%nat -> (j < n)%nat -> ent R i j = zsum (map (fun t => ent A i t * ent B t j) (seq 0 k)).
Proof. exact (m_mul_square A B n k). Qed.
Print Assumptions C52_product.

(** REFUTED in general: the list for the result of an r by k times a k by c product has c rows of
    length r, so unless r = c the product is an IndexError. *)
Theorem C52_product_refuted A B r k c : shape A r k -> shape B k c -> (0 < r)%nat -> (0 < k)%nat -> r <> c -> m_mul A B = Raise IndexError.
Proof. exact (m_mul_rect A B r k c). Qed.
Print Assumptions C52_product_refuted.

(** Factors that do not fit are rejected. *)
Theorem C52_product_shapes A B r k k' c : shape A r k -> shape B k' c -> (0 < r)%nat -> k <> k' -> m_mul A B = Raise ValueError.
Proof.
  intros SA SB Hr D. unfold m_mul. rewrite (shape_ncols A r k SA Hr), (shape_nrows B k' c SB). destruct (Z.eqb_spec (Z.of_nat k) (Z.of_nat k')); [lia|reflexivity].
Qed.
Print Assumptions C52_product_shapes.

(** REFUTED: sums and differences of matrices of different shapes are not rejected; a larger second matrix is cut
    off. *)
Theorem C52_add_shapes_refuted A B r c r' c' : shape A r c -> shape B r' c' -> (0 < r <= r')%nat -> (c <= c')%nat -> (r, c) <> (r', c') ->
  (exists R, m_add A B = Ret R /\ shape R r c /\ forall i j, (i < r)%nat -> (j < c)%nat -> ent R i j = ent A i j + ent B i j) /\
  (exists R, m_sub A B = Ret R /\ shape R r c /\ forall i j, (i < r)%nat -> (j < c)%nat -> ent R i j = ent A i j - ent B i j).
Proof.
  intros SA SB (Hr & Lr) Lc _. split.
  - unfold m_add. match goal with |- context [fill _ _ ?F _] => destruct (entrywise A r c F (fun i j => en A i j + en B i j)) as (R & E & S & H); [exact SA|exact Hr| |exists R; split; [exact E|]; split; [exact S|]; intros i j Hi Hj; rewrite (H i j Hi Hj)] end.
    + intros i j Hi Hj. rewrite (mget_ok A r c i j SA Hi Hj), (mget_ok B r' c' i j SB) by lia. cbn [bind]. reflexivity.
    + unfold en. cbv beta. rewrite !Nat2Z.id. reflexivity.
  - unfold m_sub. match goal with |- context [fill _ _ ?F _] => destruct (entrywise A r c F (fun i j => en A i j - en B i j)) as (R & E & S & H); [exact SA|exact Hr| |exists R; split; [exact E|]; split; [exact S|]; intros i j Hi Hj; rewrite (H i j Hi Hj)] end.
    + intros i j Hi Hj. rewrite (mget_ok A r c i j SA Hi Hj), (mget_ok B r' c' i j SB) by lia. cbn [bind]. reflexivity.
    + unfold en. cbv beta. rewrite !Nat2Z.id. reflexivity.
Qed.
Print Assumptions C52_add_shapes_refuted.

(** A second matrix with too few rows or columns is an IndexError. *)
Lemma mget_out B r c i j : shape B r c -> 0 <= i -> 0 <= j -> Z.of_nat r <= i \/ Z.of_nat c <= j -> mget B i j = Raise IndexError.
Proof.
  intros S Hi Hj H. unfold mget. destruct (Z.le_gt_cases (Z.of_nat r) i) as [L|L].
  - unfold pyget, pyidx. destruct S as (-> & _). destruct (Z.ltb_spec i (Z.of_nat r)); [lia|]. rewrite andb_false_r. destruct (Z.ltb_spec i 0); [lia|]. rewrite andb_false_r. reflexivity.
  - rewrite (pyget_nth B i []) by (destruct S as (-> & _); lia). cbn [bind]. assert (Lr : length (nth (Z.to_nat i) B []) = c) by (apply (shape_row B r c _ S); lia).
    unfold pyget, pyidx. rewrite Lr. destruct (Z.ltb_spec j (Z.of_nat c)); [lia|]. rewrite andb_false_r. destruct (Z.ltb_spec j 0); [lia|]. rewrite andb_false_r. reflexivity.
Qed.
Lemma fill_short A B r c r' c' op : shape A r c -> shape B r' c' -> (0 < r)%nat -> (0 < c)%nat -> (r' < r)%nat \/ (c' < c)%nat ->
  fill (Z.of_nat r) (Z.of_nat c) (fun i j => do x <- mget A i j; do y <- mget B i j; Ret (op x y)) (zero_matrix (Z.of_nat r) (Z.of_nat c)) = Raise IndexError.
Proof.
  intros SA SB Hr Hc H. pose proof (zero_shape (Z.of_nat r) (Z.of_nat c) ltac:(lia) ltac:(lia)) as SZ. rewrite !Nat2Z.id in SZ. set (F := fun i j : Z => do x <- mget A i j; do y <- mget B i j; Ret (op x y)).
  assert (Bad : forall i j, 0 <= i < Z.of_nat r -> 0 <= j < Z.of_nat c -> Z.of_nat r' <= i \/ Z.of_nat c' <= j -> F i j = Raise IndexError).
  { intros i j Hi Hj Q. unfold F. rewrite (mget_ok A r c i j SA Hi Hj), (mget_out B r' c' i j SB) by lia. reflexivity. }
  assert (Good : forall i j, 0 <= i < Z.of_nat r -> 0 <= j < Z.of_nat c -> i < Z.of_nat r' -> j < Z.of_nat c' -> F i j = Ret (op (en A i j) (en B i j))).
  { intros i j Hi Hj Q Q'. unfold F. rewrite (mget_ok A r c i j SA Hi Hj), (mget_ok B r' c' i j SB) by lia. reflexivity. }
  clearbody F. unfold fill. destruct (Nat.lt_ge_cases c' c) as [L|L].
  - rewrite (zrange_cons 0 (Z.of_nat r)) by lia. cbn [foldM]. destruct (Nat.eq_dec r' 0) as [E0|E0].
    { rewrite (zrange_cons 0 (Z.of_nat c)) by lia. cbn [foldM]. rewrite Bad by lia. reflexivity. }
    rewrite (zrange_app 0 (Z.of_nat c') (Z.of_nat c)) by lia. rewrite (zrange_cons (Z.of_nat c') (Z.of_nat c)) by lia.
    destruct (fill_row _ r c 0 (Z.of_nat c') F (fun j => op (en A 0 j) (en B 0 j)) SZ ltac:(lia) ltac:(lia) ltac:(intros; apply Good; lia)) as (M' & E & _).
    rewrite (foldM_raise _ IndexError _ _ _ _ M' E); [reflexivity|]. rewrite Bad by lia. reflexivity.
  - rewrite (zrange_app 0 (Z.of_nat r') (Z.of_nat r)) by lia. rewrite (zrange_cons (Z.of_nat r') (Z.of_nat r)) by lia.
    destruct (fill_ok _ r c (Z.of_nat r') (Z.of_nat c) F (fun i j => op (en A i j) (en B i j)) SZ ltac:(lia) ltac:(lia) ltac:(intros; apply Good; lia)) as (M' & E & _).
    apply (foldM_raise _ IndexError _ _ _ _ M' E). rewrite (zrange_cons 0 (Z.of_nat c)) by lia. cbn [foldM]. rewrite Bad by lia. reflexivity.
Qed.
Theorem C52_add_smaller A B r c r' c' : shape A r c -> shape B r' c' -> (0 < r)%nat -> (0 < c)%nat -> (r' < r)%nat \/ (c' < c)%nat ->
  m_add A B = Raise IndexError /\ m_sub A B = Raise IndexError.
Proof.
  intros SA SB Hr Hc H. unfold m_add, m_sub. rewrite (shape_nrows A r c SA), (shape_ncols A r c SA Hr).
  rewrite (fill_short A B r c r' c' Z.add SA SB Hr Hc H), (fill_short A B r c r' c' Z.sub SA SB Hr Hc H). split; reflexivity.
Qed.
Print Assumptions C52_add_smaller.
Example C52_ex_shapes : shape [[1; 2]; [3; 4]] 2 2 /\ shape [[1; 2; 3]; [4; 5; 6]; [7; 8; 9]] 3 3 /\ m_add [[1; 2]; [3; 4]] [[1; 2; 3]; [4; 5; 6]; [7; 8; 9]] = Ret [[2; 4]; [7; 9]] /\
  m_sub [[1; 2; 3]; [4; 5; 6]; [7; 8; 9]] [[1; 2]; [3; 4]] = Raise IndexError.
Proof. split; [|split; [|split; reflexivity]]; (split; [reflexivity|]; intros row H; repeat (destruct H as [<-|H]; [reflexivity|]); destruct H). Qed.

(** Deleting row or column number idx leaves the others in order. *)
Theorem C52_delete_row A idx : firstn idx A ++ skipn (S idx) A <> [] ->
  delete_row (Z.of_nat idx) A = Ret (firstn idx A ++ skipn (S idx) A).
Proof. intros H. unfold delete_row. rewrite drop_index_ok. unfold new_matrix. destruct (firstn idx A ++ skipn (S idx) A); [contradiction|reflexivity]. Qed.
Print Assumptions C52_delete_row.

Theorem C52_delete_col A idx : A <> [] ->
  delete_col (Z.of_nat idx) A = Ret (map (fun row => firstn idx row ++ skipn (S idx) row) A).
Proof.
  intros H. unfold delete_col. rewrite (map_ext (drop_index (Z.of_nat idx)) (fun row => firstn idx row ++ skipn (S idx) row)) by (intros; apply drop_index_ok). destruct A; [contradiction|reflexivity].
Qed.
Print Assumptions C52_delete_col.

Example C52_ex_add : m_add [[1; 2]; [3; 4]] [[5; 6]; [7; 8]] = Ret [[6; 8]; [10; 12]]. Proof. reflexivity. Qed.
Example C52_ex_mul : m_mul [[1; 2; 3]; [4; 5; 6]] [[1; 0]; [0; 1]; [1; 1]] = Ret [[4; 5]; [10; 11]]. Proof. reflexivity. Qed.
Example C52_ex_rect : m_mul [[1; 2]] [[1; 2; 3]; [4; 5; 6]] = Raise IndexError. Proof. reflexivity. Qed.
Example C52_ex_row : delete_row 1 [[1; 2]; [3; 4]; [5; 6]] = Ret [[1; 2]; [5; 6]]. Proof. reflexivity. Qed.
Example C52_ex_col : delete_col 0 [[1; 2]; [3; 4]; [5; 6]] = Ret [[2]; [4]; [6]]. Proof. reflexivity. Qed.

(** C53: if no leading principal minor of order 1 .. n - 1 vanishes, the result is the
    determinant. *)
Theorem C53_determinant M n : (2 <= n)%nat -> shape M n n -> (forall k, (0 < k < n)%nat -> det k (ent M) <> 0) ->
  exists M', determinant M = Ret (det n (ent M), M').
Proof. intros Hn S H. destruct (determinant_ok n Hn M S) as (d & M' & E & _ & _ & H2). exists M'. rewrite E, (H2 H). reflexivity. Qed.
Print Assumptions C53_determinant.

(** For every square matrix with two or more rows a number is returned; unless it is 0 it is the
    determinant, so the determinant of a singular matrix is found. *)
Theorem C53_determinant_nonzero M n : (2 <= n)%nat -> shape M n n ->
  exists d M', determinant M = Ret (d, M') /\ (d <> 0 -> d = det n (ent M)) /\ (det n (ent M) = 0 -> d = 0).
Proof.
  intros Hn S. destruct (determinant_ok n Hn M S) as (d & M' & E & _ & H & _). exists d, M'. split; [exact E|]. split; [exact H|]. intros Z0. destruct (Z.eq_dec d 0) as [|D]; [assumption|]. rewrite (H D). exact Z0.
Qed.
Print Assumptions C53_determinant_nonzero.

Theorem C53_determinant_1 x : x <> 0 -> determinant [[x]] = Ret (det 1 (ent [[x]]), [[x]]).
Proof. intros H. rewrite (determinant_1 x H). unfold det, ent. cbn -[Z.mul]. change ((-1) ^ 0) with 1. repeat f_equal. lia. Qed.
Print Assumptions C53_determinant_1.

Theorem C53_not_square M r c : shape M r c -> (0 < r)%nat -> r <> c -> determinant M = Raise ValueError.
Proof.
  intros S Hr D. unfold determinant. rewrite (shape_nrows M r c S), (shape_ncols M r c S Hr). destruct (Z.eqb_spec (Z.of_nat r) (Z.of_nat c)); [lia|reflexivity].
Qed.
Print Assumptions C53_not_square.

(** REFUTED: in every square matrix, when the only non-zero entry below a zero pivot is in the last
    row, 0 is returned, whatever the determinant (here for the first pivot); for the matrix [[0]] an
    UnboundLocalError is raised. *)
Theorem C53_determinant_refuted M n : (2 <= n)%nat -> shape M n n -> (forall i, (i < n - 1)%nat -> ent M i 0 = 0) -> determinant M = Ret (0, M).
Proof.
  intros Hn S H. unfold determinant. rewrite (shape_nrows M n n S), (shape_ncols M n n S ltac:(lia)), Z.eqb_refl. cbn [negb]. rewrite zrange_cons by lia. cbn [det_rounds].
  rewrite (mget_ok M n n 0 0 S) by lia. assert (Z0 : forall i, 0 <= i < Z.of_nat n - 1 -> en M i 0 = 0) by (intros i Hi; unfold en; apply H; lia).
  rewrite Z0 by lia. cbn [bind]. rewrite Z.eqb_refl.
  assert (F : forall t a iv, Z.of_nat t = Z.of_nat n - a -> 0 < a < Z.of_nat n -> find_row M 0 (zrange a (Z.of_nat n)) iv = Ret (Some (Z.of_nat n - 1))).
  { induction t as [|t IH]; intros a iv Ht Ha; [lia|]. rewrite zrange_cons by lia. cbn [find_row]. rewrite (mget_ok M n n a 0 S) by lia. cbn [bind]. destruct (Z.eq_dec a (Z.of_nat n - 1)) as [->|D].
    - replace (Z.of_nat n - 1 + 1) with (Z.of_nat n) by lia. rewrite zrange_nil by lia. cbn [find_row]. destruct (negb _); reflexivity.
    - rewrite (Z0 a) by lia. cbn [negb Z.eqb]. apply IH; lia. }
  rewrite (F (n - 1)%nat) by lia. cbn [bind]. rewrite Z.eqb_refl. reflexivity.
Qed.
(** So it is wrong for every [[0, b], [c, d]] with b and c not 0. *)
Theorem C53_determinant_2_refuted b c d : b <> 0 -> c <> 0 -> determinant [[0; b]; [c; d]] = Ret (0, [[0; b]; [c; d]]) /\ det 2 (ent [[0; b]; [c; d]]) <> 0.
Proof.
  intros Hb Hc. split.
  - apply (C53_determinant_refuted _ 2); [lia| |intros i Hi; assert (i = 0)%nat as -> by lia; reflexivity]. split; [reflexivity|]. intros row [<-|[<-|[]]]; reflexivity.
  - assert (det 2 (ent [[0; b]; [c; d]]) = - (b * c)) as -> by (cbv [det ent seq map zsum fold_right nth Nat.ltb Nat.leb]; change ((-1) ^ Z.of_nat 0) with 1; change ((-1) ^ Z.of_nat 1) with (-1); ring). nia.
Qed.
Print Assumptions C53_determinant_2_refuted.
Print Assumptions C53_determinant_refuted.

Theorem C53_zero_refuted : determinant [[0]] = Raise UnboundLocalError.
Proof. reflexivity. Qed.
Print Assumptions C53_zero_refuted.

(** REFUTED: the matrix is overwritten: after the first call the last entry of a 2 by 2 matrix is
    its determinant, and a second call in general gives another number. *)
Lemma determinant_2 a b c d : a <> 0 -> determinant [[a; b]; [c; d]] = Ret (a * d - c * b, [[a; b]; [c; a * d - c * b]]).
Proof.
  intros Ha. set (v := a * d - c * b). change (determinant [[a; b]; [c; d]]) with (det_rounds 2 [0; 1] [[a; b]; [c; d]] 1 1 None).
  cbn [det_rounds]. change (mget [[a; b]; [c; d]] 0 0) with (Ret a). cbn [bind]. destruct (Z.eqb_spec a 0); [contradiction|].
  assert (eliminate 2 0 a 1 [[a; b]; [c; d]] = Ret [[a; b]; [c; v]]) as ->. { change (Ret [[a; b]; [c; v / 1]] = Ret [[a; b]; [c; v]]). rewrite Z.div_1_r. reflexivity. }
  cbn [bind]. change (mget [[a; b]; [c; v]] 1 1) with (Ret v). cbn [bind]. destruct (Z.eqb_spec v 0) as [->|].
  - reflexivity.
  - change (Ret (1 * v, [[a; b]; [c; v]]) = Ret (v, [[a; b]; [c; v]])). rewrite Z.mul_1_l. reflexivity.
Qed.
Theorem C53_pure_refuted a b c d : a <> 0 -> a * d - c * b <> d ->
  exists M' M'', determinant [[a; b]; [c; d]] = Ret (a * d - c * b, M') /\ M' <> [[a; b]; [c; d]] /\
    determinant M' = Ret (a * (a * d - c * b) - c * b, M'') /\ a * (a * d - c * b) - c * b <> a * d - c * b.
Proof.
  intros Ha Hd. rewrite determinant_2 by exact Ha. eexists _, _. split; [reflexivity|]. split; [intros E; injection E as E; contradiction|]. split; [apply determinant_2, Ha|]. intros E. apply Hd. nia.
Qed.
Example C53_pure_ex : exists M' M'', determinant [[1; 2]; [3; 4]] = Ret (-2, M') /\ determinant M' = Ret (-8, M'').
Proof. eexists _, _. split; reflexivity. Qed.
Print Assumptions C53_pure_refuted.

(** The specification on a 3 by 3 example, with nonzero leading minors 2 and 3. *)
Example C53_ex : det 3 (ent [[2; 1; 0]; [1; 2; 1]; [0; 1; 2]]) = 4 /\ det 1 (ent [[2; 1; 0]; [1; 2; 1]; [0; 1; 2]]) = 2 /\ det 2 (ent [[2; 1; 0]; [1; 2; 1]; [0; 1; 2]]) = 3.
Proof. repeat split. Qed.
(** A row exchange that is carried out. *)
Example C53_ex_swap : exists M', determinant [[0; 1; 0]; [2; 0; 5]; [0; 0; 3]] = Ret (-6, M') /\ det 3 (ent [[0; 1; 0]; [2; 0; 5]; [0; 0; 3]]) = -6.
Proof. eexists. split; reflexivity. Qed.
