(** * Determinants: facts proved with the determinant of Mathematical Components *)
From Coq Require Import ZArith List.
From Verif Require Import Base Mat_Spec.
From mathcomp Require Import all_ssreflect ssralg matrix.
Set Implicit Arguments.
Unset Strict Implicit.
Unset Printing Implicit Defensive.
Import GRing.Theory.

(** The integers of the standard library as a commutative ring. *)
Definition Z_code (z : Z) : bool * nat := ((0 <=? z)%Z, Z.to_nat (Z.abs z)).
Definition Z_decode (p : bool * nat) : Z := if p.1 then Z.of_nat p.2 else (- Z.of_nat p.2)%Z.
Lemma Z_codeK : cancel Z_code Z_decode.
Proof. by case=> [|p|p]; rewrite /Z_decode /Z_code //= ?positive_nat_Z. Qed.
Definition Z_eqMixin := EqMixin Z.eqb_spec.
Canonical Z_eqType := EqType Z Z_eqMixin.
Definition Z_choiceMixin := CanChoiceMixin Z_codeK.
Canonical Z_choiceType := ChoiceType Z Z_choiceMixin.
Definition Z_zmodMixin := ZmodMixin Z.add_assoc Z.add_comm Z.add_0_l Z.add_opp_diag_l.
Canonical Z_zmodType := ZmodType Z Z_zmodMixin.
Lemma Z_one_neq_zero : (1%Z != 0%Z :> Z). Proof. by []. Qed.
Definition Z_ringMixin := RingMixin Z.mul_assoc Z.mul_1_l Z.mul_1_r Z.mul_add_distr_r Z.mul_add_distr_l Z_one_neq_zero.
Canonical Z_ringType := RingType Z Z_ringMixin.
Canonical Z_comRingType := ComRingType Z Z.mul_comm.

Local Open Scope ring_scope.

Definition mx (n : nat) (a : nat -> nat -> Z) : 'M[Z]_n := \matrix_(i < n, j < n) a i j.

Lemma zsum_big (f : nat -> Z) n : zsum (List.map f (List.seq 0 n)) = \sum_(j < n) f j.
Proof.
  elim: n => [|n IH]; first by rewrite big_ord0.
  by rewrite List.seq_S List.map_app zsum_app IH big_ord_recr /= Z.add_0_r.
Qed.

Lemma signE (j : nat) : Z.pow (Z.opp 1) (Z.of_nat j) = (-1) ^+ j :> Z.
Proof. elim: j => [//|j IH]. by rewrite Nat2Z.inj_succ Z.pow_succ_r ?IH ?exprS //; apply: Nat2Z.is_nonneg. Qed.

Lemma detE n a : det n a = \det (mx n a).
Proof.
  elim: n a => [|n IH] a; first by rewrite det_mx00.
  rewrite (expand_det_row _ ord0) [LHS]/det -/det zsum_big. apply: eq_bigr => j _.
  rewrite /cofactor mxE IH add0n signE mulrA (mulrC (a 0%N j)). congr (_ * \det _).
  apply/matrixP => x y. rewrite !mxE /= /bump.
  case: Nat.ltb_spec => [/ltP H|/leP H]; last by rewrite H.
  by rewrite (leqNgt j) H.
Qed.

(** The determinant of a block matrix, multiplied by a power of that of the upper left block. *)
Lemma schur k m (A : 'M[Z]_k) (b : 'M[Z]_(k, m)) (c : 'M[Z]_(m, k)) (d : 'M[Z]_m) :
  (\det A) ^+ m * \det (block_mx A b c d) = \det A * \det (\det A *: d - c *m \adj A *m b).
Proof.
  have H : block_mx 1%:M 0 (- (c *m \adj A)) (\det A)%:M *m block_mx A b c d = block_mx A b 0 (\det A *: d - c *m \adj A *m b).
    rewrite mulmx_block !mul1mx !mul0mx !addr0 !mulNmx -mulmxA mul_adj_mx !mul_scalar_mx mul_mx_scalar addrC subrr.
    by rewrite [X in block_mx _ _ _ X]addrC.
  move/(congr1 (fun X => \det X)): H. by rewrite det_mulmx det_lblock det1 mul1r det_scalar det_ublock.
Qed.

Section Border.
  Variables (a : nat -> nat -> Z) (k : nat).
  Let A := mx k a.
  (** p a(i, j) - c_i adj(A) b_j *)
  Definition comp (i j : nat) : Z := \det A * a i j - ((\row_(y < k) a i y) *m \adj A *m (\col_(x < k) a x j)) ord0 ord0.

  Definition bordered (e f : nat -> nat) (x y : nat) : Z :=
    a (if (x <? k)%N then x else e (x - k)%N) (if (y <? k)%N then y else f (y - k)%N).

  Lemma bordered_block m e f : mx (k + m) (bordered e f) =
    block_mx A (\matrix_(x < k, y < m) a x (f y)) (\matrix_(x < m, y < k) a (e x) y) (\matrix_(x < m, y < m) a (e x) (f y)).
  Proof.
    apply/matrixP => x y. rewrite mxE /bordered /block_mx. rewrite -(splitK x) -(splitK y).
    case: (split x) => x'; case: (split y) => y'; rewrite /unsplit ?col_mxEu ?col_mxEd ?row_mxEl ?row_mxEr !mxE /=.
    - by case: Nat.ltb_spec => [_|/leP H]; [case: Nat.ltb_spec => [//|/leP H]|]; rewrite leqNgt ltn_ord in H.
    - case: Nat.ltb_spec => [_|/leP H]; last by rewrite leqNgt ltn_ord in H. case: Nat.ltb_spec => [/ltP H|_]; last by rewrite addKn.
      by rewrite ltnNge leq_addr in H.
    - case: Nat.ltb_spec => [/ltP H|_]; first by rewrite ltnNge leq_addr in H. rewrite addKn. by case: Nat.ltb_spec => [//|/leP H]; rewrite leqNgt ltn_ord in H.
    - case: Nat.ltb_spec => [/ltP H|_]; first by rewrite ltnNge leq_addr in H. case: Nat.ltb_spec => [/ltP H|_]; first by rewrite ltnNge leq_addr in H. by rewrite !addKn.
  Qed.

  Lemma bordered_det m e f : (\det A) ^+ m * det (k + m) (bordered e f) = \det A * \det (\matrix_(x < m, y < m) comp (e x) (f y)).
  Proof.
    rewrite detE bordered_block schur. congr (_ * \det _). apply/matrixP => x y. rewrite !mxE /comp. congr (_ - _).
    rewrite [RHS]mxE. apply: eq_bigr => z _. rewrite !mxE. congr (_ * _). apply: eq_bigr => t _. by rewrite !mxE.
  Qed.
End Border.

(** The border of one row and one column. *)
Definition minor (a : nat -> nat -> Z) (k i j : nat) : Z :=
  det (S k) (fun x y => a (if (x <? k)%N then x else i) (if (y <? k)%N then y else j)).

Lemma det_ext n : forall a b, (forall x y, (x < n)%coq_nat -> (y < n)%coq_nat -> a x y = b x y) -> det n a = det n b.
Proof.
  move=> a b H. rewrite !detE. congr (\det _). apply/matrixP => x y. rewrite !mxE. apply: H; apply/ltP; exact: ltn_ord.
Qed.

Lemma minor_comp a k i j : det k a <> 0%Z -> minor a k i j = comp a k i j.
Proof.
  move=> H. have := bordered_det a k 1 (fun _ => i) (fun _ => j). rewrite det_mx11 mxE expr1 -detE => E.
  apply: (Z.mul_reg_l _ _ (det k a) H). rewrite -[RHS]E. congr (_ * _). by rewrite /minor addn1.
Qed.

Lemma bareiss_identity a k i j : det k a <> 0%Z ->
  Z.mul (det k a) (minor a (S k) i j) = Z.sub (Z.mul (minor a k k k) (minor a k i j)) (Z.mul (minor a k i k) (minor a k k j)).
Proof.
  move=> H. have := bordered_det a k 2 (fun x => if x is O then k else i) (fun y => if y is O then k else j).
  rewrite -detE expr2 -mulrA => E. have C : forall i j, minor a k i j = comp a k i j by move=> *; exact: minor_comp. rewrite !C. have {}E := Z.mul_reg_l _ _ (det k a) H E.
  have D : \det (\matrix_(x < 2, y < 2) comp a k (if x : nat is O then k else i) (if y : nat is O then k else j)) = comp a k k k * comp a k i j - comp a k k j * comp a k i k.
    rewrite (expand_det_row _ ord0) !big_ord_recl big_ord0 /cofactor !mxE /= !det_mx11 !mxE /=.
    by rewrite addr0 expr0 mul1r expr1 mulN1r mulrN.
  rewrite D in E. rewrite [X in _ = Z.sub _ X]Z.mul_comm. rewrite -[RHS]E. congr (_ * _). rewrite /minor addn2. apply: det_ext => x y /ltP Hx /ltP Hy. rewrite /bordered.
  have G : forall z w, (z < k.+2)%N -> (if (z <? k.+1)%N then z else w) = (if (z <? k)%N then z else if (z - k)%N is O then k else w).
    move=> z w Hz. case: Nat.ltb_spec => [/ltP H1|/leP H1]; case: Nat.ltb_spec => [/ltP H2|/leP H2] //.
    - have -> : z = k by apply/eqP; rewrite eqn_leq H2 andbT -ltnS. by rewrite subnn.
    - by rewrite ltnNge (ltnW H1) in H2.
    - have -> : z = k.+1 by apply/eqP; rewrite eqn_leq H1 andbT -ltnS. by rewrite subSnn.
  by rewrite !G.
Qed.

(** Exchanging two rows changes the sign. *)
Lemma det_swap n a r s : (r < n)%coq_nat -> (s < n)%coq_nat -> r <> s ->
  det n (fun x y => a (if (x =? r)%N then s else if (x =? s)%N then r else x) y) = Z.opp (det n a).
Proof.
  move=> /ltP Hr /ltP Hs D. rewrite !detE. have -> : mx n (fun x y => a (if (x =? r)%N then s else if (x =? s)%N then r else x) y) = xrow (Ordinal Hr) (Ordinal Hs) (mx n a).
    apply/matrixP => x y. rewrite !mxE. congr (a _ _). case: perm.tpermP => [->|->|/eqP H1 /eqP H2] /=.
    - by rewrite Nat.eqb_refl.
    - rewrite Nat.eqb_refl. by case: Nat.eqb_spec => [E|//].
    - case: Nat.eqb_spec => [E|_]; first by rewrite -val_eqE /= E eqxx in H1. case: Nat.eqb_spec => [E|//]. by rewrite -val_eqE /= E eqxx in H2.
  rewrite xrowE det_mulmx /tperm_mx det_perm perm.odd_tperm. have -> : (Ordinal Hr != Ordinal Hs) = true by rewrite -val_eqE /=; apply/eqP.
  by rewrite expr1 mulN1r.
Qed.
