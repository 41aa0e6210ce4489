(** * C96: what is printed *)
From Coq Require Import Ascii String ZArith List Bool Lia.
From Verif Require Import Base Poly_Spec Poly_Model Poly_Proofs3 Mat_Spec Mat_Model Repr_Spec Repr_Model Repr_Proofs Repr_Proofs2 Repr_Proofs3.
Import ListNotations.
Open Scope Z_scope.

(** C96: the text of a polynomial is a formula for it. *)
Theorem C96_polynomial_formula v p x : normal p -> formula v x (poly_repr v p) (value p x).
Proof. exact (poly_repr_value v p x). Qed.
Print Assumptions C96_polynomial_formula.

(** C96: different polynomials (in the same variable) have different texts. *)
Theorem C96_polynomial_injective v p q : variable_name v -> normal p -> normal q -> poly_repr v p = poly_repr v q -> p = q.
Proof. exact (poly_repr_inj v p q). Qed.
Print Assumptions C96_polynomial_injective.

(** C96: the text of a matrix is a table of its entries, all fields having the width of the longest. *)
Theorem C96_matrix_table M r c : shape M r c -> (1 <= r)%nat -> exists w, table_width w M /\ m_repr M = Ret (table w M).
Proof. exact (m_repr_ok M r c). Qed.
Print Assumptions C96_matrix_table.

(** C96: different matrices have different texts. *)
Theorem C96_matrix_injective M r c M' r' c' : shape M r c -> (1 <= r)%nat -> shape M' r' c' -> (1 <= r')%nat -> m_repr M = m_repr M' -> M = M'.
Proof.
  intros S H S' H' E. destruct (m_repr_ok M r c S H) as (w & _ & E1). destruct (m_repr_ok M' r' c' S' H') as (w' & _ & E2).
  rewrite E1, E2 in E. injection E as E. revert E. apply table_inj.
  - intros ->. destruct S as (S & _). cbn in S. lia.
  - intros ->. destruct S' as (S' & _). cbn in S'. lia.
Qed.
Print Assumptions C96_matrix_injective.

(** C96: different Pell equations have different texts; so have graphs with different numbers of vertices, and leftist heaps
    of different sizes. *)
Theorem C96_pell_injective D N D' N' : pell_repr D N = pell_repr D' N' -> D = D' /\ N = N'.
Proof.
  intros E. unfold pell_repr in E. apply app_inv_head in E. apply num_inj in E; [|cbn; apply not_num; auto|cbn; apply not_num; auto].
  destruct E as (-> & E). apply app_inv_head in E. apply str_inj in E. auto.
Qed.
Print Assumptions C96_pell_injective.

Theorem C96_sizes_injective n m : (graph_repr n = graph_repr m -> n = m) /\ (leftist_repr n = leftist_repr m -> n = m).
Proof.
  split; intros E; [unfold graph_repr in E|unfold leftist_repr in E]; apply app_inv_head in E;
    (apply num_inj in E; [apply E|cbn; apply not_num; auto 8|cbn; apply not_num; auto 8]).
Qed.
Print Assumptions C96_sizes_injective.

(** C96: the text of a QuadraticIrrational does not tell (2 + sqrt(3))/1 from (5 + sqrt(3))/1: for q = 1 and p <> 0 it is "1 + sqrt(d)". *)
Theorem C96_quadratic_refuted d p : p <> 0 -> quadratic_repr d p 1 = txt "Continued Fraction Expansion of 1 + sqrt(" ++ str d ++ txt ")" /\
  exists p', p' <> p /\ p' <> 0 /\ quadratic_repr d p' 1 = quadratic_repr d p 1.
Proof.
  intros H. unfold quadratic_repr. cbn [Z.eqb]. rewrite (proj2 (Z.eqb_neq p 0) H). split; [reflexivity|].
  exists (2 * p). split; [lia|]. split; [lia|]. rewrite (proj2 (Z.eqb_neq (2 * p) 0)) by lia. reflexivity.
Qed.
Example C96_quadratic_ex : quadratic_repr 3 2 1 = quadratic_repr 3 5 1 /\ quadratic_repr 3 2 1 = txt "Continued Fraction Expansion of 1 + sqrt(3)".
Proof. split; reflexivity. Qed.
Print Assumptions C96_quadratic_refuted.

(** C96: apart from that case the text of a QuadraticIrrational tells the number. *)
Theorem C96_quadratic_injective d p q d' p' q' : p = 0 \/ q <> 1 -> p' = 0 \/ q' <> 1 -> quadratic_repr d p q = quadratic_repr d' p' q' ->
  d = d' /\ p = p' /\ q = q'.
Proof.
  intros H H' E. unfold quadratic_repr in E. apply app_inv_head in E.
  destruct (Z.eqb_spec p 0) as [P|P], (Z.eqb_spec p' 0) as [P'|P'], (Z.eqb_spec q 1) as [Q|Q], (Z.eqb_spec q' 1) as [Q'|Q']; try lia; try discriminate E;
    apply app_inv_head in E; (apply num_inj in E; [|cbn; apply not_num; auto|cbn; apply not_num; auto]); destruct E as (-> & E); try discriminate E.
  - split; [reflexivity|lia].
  - apply app_inv_head, str_inj in E. split; [reflexivity|lia].
  - apply app_inv_head in E. apply num_inj in E; [|cbn; apply not_num; auto|cbn; apply not_num; auto]. destruct E as (-> & E).
    apply app_inv_head, str_inj in E. auto.
Qed.
Print Assumptions C96_quadratic_injective.

(** C96: coefficients and comparison. *)
Theorem C96_polynomial_items p o i : (- len p <= i < len p -> p_getitem p i = Ret (coef p (if i <? 0 then i + len p else i))) /\
  (~ (- len p <= i < len p) -> p_getitem p i = Raise IndexError) /\
  (p_ne p o = true <-> p <> match o with Poly q => q | Num c => [c] end).
Proof.
  unfold p_getitem, pyget, pyidx, len, coef. split; [|split].
  - intros H. destruct (Z.leb_spec 0 i) as [L|L]; cbn [andb].
    + rewrite (proj2 (Z.ltb_lt i (Z.of_nat (length p)))), (proj2 (Z.ltb_ge i 0)) by lia. rewrite (proj2 (Z.ltb_ge i 0)) by lia. rewrite (nth_error_nth' p 0) by lia. reflexivity.
    + rewrite (proj2 (Z.leb_le (- _) i)), (proj2 (Z.ltb_lt i 0)) by lia. cbn [andb]. rewrite (proj2 (Z.ltb_ge _ 0)) by lia.
      rewrite (nth_error_nth' p 0) by lia. reflexivity.
  - intros H. destruct (Z.leb_spec 0 i) as [L|L]; cbn [andb].
    + rewrite (proj2 (Z.ltb_ge i (Z.of_nat (length p)))), (proj2 (Z.ltb_ge i 0)), andb_false_r by lia. reflexivity.
    + rewrite (proj2 (Z.leb_gt (- _) i)) by lia. reflexivity.
  - unfold p_ne. rewrite negb_true_iff. destruct o as [q|c]; cbn [p_eq].
    + rewrite <- (list_eqb_spec p q). destruct (list_eqb p q); split; congruence.
    + pose proof (list_eqb_spec [c] p) as X. split.
      * intros F E. rewrite (proj2 X (eq_sym E)) in F. discriminate.
      * intros N. destruct (list_eqb [c] p) eqn:F; [|reflexivity]. exfalso. apply N. symmetry. apply X. reflexivity.
Qed.
Print Assumptions C96_polynomial_items.

Example C96_ex : poly_repr (txt "x") [1; -2; 0; 1] = txt "x^3 - 2*x + 1" /\ normal [1; -2; 0; 1] /\ variable_name (txt "x").
Proof.
  split; [reflexivity|]. split; [split; [discriminate|right; discriminate]|]. exists "x"%char, []. split; [reflexivity|]. split; [|discriminate].
  unfold digit, txt. cbn. intros H. repeat destruct H as [H|H]; try discriminate; exact H.
Qed.
Example C96_ex2 : m_repr [[1; -20]; [300; 4]] = Ret (txt "[  1 -20]" ++ ["010"%char] ++ txt "[300   4]") /\ shape [[1; -20]; [300; 4]] 2 2.
Proof. split; [reflexivity|]. split; [reflexivity|]. intros row [<-|[<-|[]]]; reflexivity. Qed.
