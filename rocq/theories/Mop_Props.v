(** * C102: operators with mixed operands, and the laws of the arithmetic of matrices *)
From Coq Require Import ZArith List Bool Lia.
From Verif Require Import Base Py Lists Sums Mat_Spec Mat_Model Mat_Proofs Mat_Props Mop_Model.
Import ListNotations.
Open Scope Z_scope.

(** A matrix plus or minus a number, and a number plus a matrix, raise ValueError, whatever the matrix; a number minus a matrix
    too, for a proper matrix. *)
Theorem C102_no_mixed_sums x A : op_add (Mat A) (Num x) = Raise ValueError /\ op_add (Num x) (Mat A) = Raise ValueError /\ op_sub (Mat A) (Num x) = Raise ValueError /\
  forall r c, shape A r c -> (0 < r)%nat -> op_sub (Num x) (Mat A) = Raise ValueError.
Proof.
  repeat split. intros r c S Hr. cbn [op_sub]. unfold mat_rsub. destruct (C52_neg A r c S Hr) as (R & E & _). rewrite E. reflexivity.
Qed.

(** A number times a matrix, in either order, multiplies the entries. *)
Theorem C102_scalar x A r c : shape A r c -> (0 < r)%nat -> exists R, op_mul (Num x) (Mat A) = Ret (Mat R) /\ op_mul (Mat A) (Num x) = Ret (Mat R) /\ shape R r c /\
  forall i j, (i < r)%nat -> (j < c)%nat -> ent R i j = x * ent A i j.
Proof. intros S Hr. destruct (C52_scale x A r c S Hr) as (R & E & H). exists R. cbn [op_mul mat_mul mat_rmul]. rewrite E. auto. Qed.

(** For lists of rows of different lengths it returns a matrix or raises ValueError, nothing else. *)
Theorem C102_scalar_error x A : (exists R, op_mul (Num x) (Mat A) = Ret (Mat R)) \/ op_mul (Num x) (Mat A) = Raise ValueError.
Proof.
  cbn [op_mul mat_rmul]. unfold as_mat, m_scale.
  assert (B : forall {X Y} (x : outcome X) (f : X -> outcome Y), x <> Diverge -> (forall a, f a <> Diverge) -> bind x f <> Diverge) by (intros X Y [a|e|] f Hx Hf; cbn; [apply Hf|discriminate|congruence]).
  assert (G : forall {X} (l : list X) i, pyget l i <> Diverge) by (intros X l i; unfold pyget; destruct (pyidx l i) as [k|]; [destruct (nth_error l k)|]; discriminate).
  assert (P : forall {X} (l : list X) i y, pyset l i y <> Diverge) by (intros X l i y; unfold pyset; destruct (pyidx l i); discriminate).
  assert (Fm : forall {X S} (f : S -> X -> outcome S) l, (forall s y, f s y <> Diverge) -> forall s, foldM f l s <> Diverge) by (intros X S f l Hf; induction l as [|y l IHl]; intros s; cbn [foldM]; [discriminate|apply B; [apply Hf|exact IHl]]).
  match goal with |- context [value_error ?y] => assert (N : y <> Diverge) end.
  { apply B; [|intros [|]; discriminate]. apply Fm. intros s i. apply Fm. intros s' j. apply B; [unfold mget; apply B; [apply B; [apply G|intros; apply G]|discriminate]|]. intros v. unfold mset. apply B; [apply G|]. intros row. apply B; [apply P|]. intros row'. apply P. }
  match goal with |- context [value_error ?y] => destruct y as [R|e|] end; cbn; [left; eauto|right; reflexivity|congruence].
Qed.

(** sum of matrices: the first addition is to the number 0, so that no nonempty list of matrices can be added with sum(l). *)
Theorem C102_sum_refuted x A l : op_sum (Mat A :: l) (Num x) = Raise ValueError.
Proof. reflexivity. Qed.
(** With a matrix as start value the entries are added. *)
Theorem C102_sum_start r c l : (0 < r)%nat -> (forall A, In A l -> shape A r c) -> forall S0, shape S0 r c -> exists R, op_sum (map Mat l) (Mat S0) = Ret (Mat R) /\ shape R r c /\
  forall i j, (i < r)%nat -> (j < c)%nat -> ent R i j = ent S0 i j + zsum (map (fun A => ent A i j) l).
Proof.
  intros Hr. induction l as [|A l IH]; intros Hl S0 H0.
  - exists S0. split; [reflexivity|]. split; [exact H0|]. intros i j _ _. cbn. lia.
  - destruct (C52_add S0 A r c H0 (Hl A (or_introl eq_refl)) Hr) as (R1 & E1 & S1 & H1). destruct (IH (fun B HB => Hl B (or_intror HB)) R1 S1) as (R & E & SR & H). exists R.
    unfold op_sum in *. cbn [map foldM op_add mat_add]. rewrite E1. cbn [as_mat bind]. split; [exact E|]. split; [exact SR|]. intros i j Hi Hj. rewrite H, H1 by assumption. cbn [map]. rewrite zsum_cons. lia.
Qed.

(** ** Laws *)
Lemma matrix_eq A B r c : shape A r c -> shape B r c -> (forall i j, (i < r)%nat -> (j < c)%nat -> ent A i j = ent B i j) -> A = B.
Proof.
  intros (LA & RA) (LB & RB) H. apply (nth_ext _ _ [] []); [congruence|]. intros i Hi. apply (nth_ext _ _ 0 0).
  - rewrite RA, RB; [reflexivity|apply nth_In; lia|apply nth_In; lia].
  - intros j Hj. rewrite RA in Hj by (apply nth_In; lia). apply H; lia.
Qed.

Lemma zsum_swap {A B} (f : A -> B -> Z) l m : zsum (map (fun x => zsum (map (f x) m)) l) = zsum (map (fun y => zsum (map (fun x => f x y) l)) m).
Proof.
  induction l as [|x l IH]; cbn [map]; [|rewrite zsum_cons, IH].
  - induction m as [|y m IHm]; [reflexivity|]. cbn [map]. rewrite zsum_cons, <- IHm. reflexivity.
  - clear IH. induction m as [|y m IHm]; [reflexivity|]. cbn [map]. rewrite !zsum_cons, <- IHm. lia.
Qed.
Lemma zsum_mul {A} c (f : A -> Z) l : zsum (map (fun x => c * f x) l) = c * zsum (map f l).
Proof. induction l as [|x l IH]; cbn [map]; [cbn; lia|]. rewrite !zsum_cons, IH. lia. Qed.
Lemma zsum_plus {A} (f g : A -> Z) l : zsum (map (fun x => f x + g x) l) = zsum (map f l) + zsum (map g l).
Proof. induction l as [|x l IH]; cbn [map]; [reflexivity|]. rewrite !zsum_cons, IH. lia. Qed.

(** Addition is commutative and associative, a - b is a + (-b), and a + (b - a) is b. *)
Theorem C102_sums_laws r c A B C : (0 < r)%nat -> shape A r c -> shape B r c -> shape C r c ->
  m_add A B = m_add B A /\
  (do X <- m_add A B; m_add X C) = (do Y <- m_add B C; m_add A Y) /\
  m_sub A B = (do N <- m_neg B; m_add A N) /\
  (do D <- m_sub B A; m_add A D) = Ret B.
Proof.
  intros Hr SA SB SC. destruct (C52_add A B r c SA SB Hr) as (AB & EAB & SAB & HAB), (C52_add B A r c SB SA Hr) as (BA & EBA & SBA & HBA), (C52_add B C r c SB SC Hr) as (BC & EBC & SBC & HBC).
  destruct (C52_neg B r c SB Hr) as (NB & ENB & SNB & HNB), (C52_sub A B r c SA SB Hr) as (D & ED & SD & HD), (C52_sub B A r c SB SA Hr) as (D' & ED' & SD' & HD').
  rewrite EAB, EBA, EBC, ENB, ED, ED'. cbn [bind].
  destruct (C52_add AB C r c SAB SC Hr) as (L & EL & SL & HL), (C52_add A BC r c SA SBC Hr) as (R & ER & SR & HR), (C52_add A NB r c SA SNB Hr) as (P & EP & SP & HP), (C52_add A D' r c SA SD' Hr) as (Q & EQ & SQ & HQ).
  rewrite EL, ER, EP, EQ.
  split; [|split; [|split]]; f_equal; (eapply matrix_eq; [eassumption|eassumption|]); intros i j Hi Hj.
  - rewrite HAB, HBA by assumption. lia.
  - rewrite HL, HR, HAB, HBC by assumption. lia.
  - rewrite HD, HP, HNB by assumption. lia.
  - rewrite HQ, HD' by assumption. lia.
Qed.

(** Products of square matrices are associative, distribute over sums from both sides, and numbers can be moved. *)
Theorem C102_product_laws n x A B C : (0 < n)%nat -> shape A n n -> shape B n n -> shape C n n ->
  (do X <- m_mul A B; m_mul X C) = (do Y <- m_mul B C; m_mul A Y) /\
  (do X <- m_add B C; m_mul A X) = (do Y <- m_mul A B; do Z <- m_mul A C; m_add Y Z) /\
  (do X <- m_add A B; m_mul X C) = (do Y <- m_mul A C; do Z <- m_mul B C; m_add Y Z) /\
  (do X <- m_scale x A; m_mul X B) = (do Y <- m_mul A B; m_scale x Y) /\
  (do X <- m_scale x B; m_mul A X) = (do Y <- m_mul A B; m_scale x Y).
Proof.
  intros Hn SA SB SC.
  destruct (C52_product A B n n SA SB Hn Hn) as (AB & EAB & SAB & HAB), (C52_product B C n n SB SC Hn Hn) as (BC & EBC & SBC & HBC), (C52_product A C n n SA SC Hn Hn) as (AC & EAC & SAC & HAC).
  destruct (C52_add B C n n SB SC Hn) as (T & ET & ST & HT), (C52_add A B n n SA SB Hn) as (T' & ET' & ST' & HT'), (C52_scale x A n n SA Hn) as (XA & EXA & SXA & HXA), (C52_scale x B n n SB Hn) as (XB & EXB & SXB & HXB).
  rewrite EAB, EBC, EAC, ET, ET', EXA, EXB. cbn [bind].
  destruct (C52_product AB C n n SAB SC Hn Hn) as (P1 & EP1 & SP1 & HP1), (C52_product A BC n n SA SBC Hn Hn) as (P2 & EP2 & SP2 & HP2), (C52_product A T n n SA ST Hn Hn) as (P3 & EP3 & SP3 & HP3),
    (C52_add AB AC n n SAB SAC Hn) as (P4 & EP4 & SP4 & HP4), (C52_product T' C n n ST' SC Hn Hn) as (P5 & EP5 & SP5 & HP5), (C52_add AC BC n n SAC SBC Hn) as (P6 & EP6 & SP6 & HP6),
    (C52_product XA B n n SXA SB Hn Hn) as (P7 & EP7 & SP7 & HP7), (C52_scale x AB n n SAB Hn) as (P8 & EP8 & SP8 & HP8), (C52_product A XB n n SA SXB Hn Hn) as (P9 & EP9 & SP9 & HP9).
  rewrite EP1, EP2, EP3, EP4, EP5, EP6, EP7, EP8, EP9.
  assert (In_lt : forall k, In k (seq 0 n) -> (k < n)%nat) by (intros k Hk; apply in_seq in Hk; lia).
  split; [|split; [|split; [|split]]]; f_equal; (eapply matrix_eq; [eassumption|eassumption|]); intros i j Hi Hj.
  - rewrite HP1, HP2 by assumption.
    transitivity (zsum (map (fun t => zsum (map (fun s => ent A i s * ent B s t * ent C t j) (seq 0 n))) (seq 0 n))).
    + f_equal. apply map_ext_in. intros t Ht. rewrite HAB by auto. rewrite Z.mul_comm, <- zsum_mul. f_equal. apply map_ext. intros s. ring.
    + rewrite zsum_swap. f_equal. apply map_ext_in. intros s Hs. rewrite HBC by auto. rewrite <- zsum_mul. f_equal. apply map_ext. intros t. ring.
  - rewrite HP3, HP4, HAB, HAC by assumption. rewrite <- zsum_plus. f_equal. apply map_ext_in. intros t Ht. rewrite HT by auto. ring.
  - rewrite HP5, HP6, HAC, HBC by assumption. rewrite <- zsum_plus. f_equal. apply map_ext_in. intros t Ht. rewrite HT' by auto. ring.
  - rewrite HP7, HP8, HAB by assumption. rewrite <- zsum_mul. f_equal. apply map_ext_in. intros t Ht. rewrite HXA by auto. ring.
  - rewrite HP9, HP8, HAB by assumption. rewrite <- zsum_mul. f_equal. apply map_ext_in. intros t Ht. rewrite HXB by auto. ring.
Qed.

(** ** The reflected product, called on matrices *)
(** For square matrices A.__rmul__(B) is A*B. *)
Theorem C102_rmul n A B : (0 < n)%nat -> shape A n n -> shape B n n -> mat_rmul A (Mat B) = op_mul (Mat A) (Mat B).
Proof.
  intros Hn SA SB. cbn [mat_rmul op_mul mat_mul]. unfold m_rmul, m_mul. rewrite (shape_nrows A n n SA), (shape_nrows B n n SB), (shape_ncols A n n SA Hn), (shape_ncols B n n SB Hn). reflexivity.
Qed.
(** It is documented to be B*A: for any two square matrices that do not commute it is another matrix. *)
Theorem C102_rmul_refuted n A B : (0 < n)%nat -> shape A n n -> shape B n n -> op_mul (Mat A) (Mat B) <> op_mul (Mat B) (Mat A) ->
  mat_rmul A (Mat B) <> op_mul (Mat B) (Mat A).
Proof. intros Hn SA SB H. rewrite (C102_rmul n) by assumption. exact H. Qed.
Example C102_rmul_ex : exists A B R, shape A 2 2 /\ shape B 2 2 /\ mat_rmul A (Mat B) = Ret (Mat R) /\ op_mul (Mat B) (Mat A) <> Ret (Mat R).
Proof.
  exists [[1; 1]; [0; 1]], [[1; 0]; [1; 1]], [[2; 1]; [1; 1]]. split; [|split; [|split; [reflexivity|vm_compute; discriminate]]]; (split; [reflexivity|]; intros row H; repeat (destruct H as [<-|H]; [reflexivity|]); destruct H).
Qed.

Print Assumptions C102_no_mixed_sums.
Print Assumptions C102_scalar.
Print Assumptions C102_scalar_error.
Print Assumptions C102_sum_refuted.
Print Assumptions C102_sum_start.
Print Assumptions C102_sums_laws.
Print Assumptions C102_product_laws.
Print Assumptions C102_rmul.
Print Assumptions C102_rmul_refuted.

Example shapes_2_2 : shape [[1; 2]; [3; 4]] 2 2 /\ shape [[0; -1]; [5; 7]] 2 2.
Proof. split; (split; [reflexivity|]; intros row H; repeat (destruct H as [<-|H]; [reflexivity|]); destruct H). Qed.
Example scalar_example : op_mul (Num 3) (Mat [[1; 2]; [3; 4]]) = Ret (Mat [[3; 6]; [9; 12]]).
Proof. reflexivity. Qed.
Example scalar_ragged : op_mul (Num 3) (Mat [[1; 2]; [3]]) = Raise ValueError.
Proof. reflexivity. Qed.
Example sum_example : op_sum (map Mat [[[1; 2]; [3; 4]]; [[0; -1]; [5; 7]]]) (Mat [[1; 0]; [0; 1]]) = Ret (Mat [[2; 1]; [8; 12]]).
Proof. reflexivity. Qed.
