(** * C70: graphic sequences *)
From Coq Require Import ZArith List Bool Lia Permutation.
From Verif Require Import Base Py Lists Degree_Spec Degree_Model Degree_Proofs Degree_Proofs2 Degree_Proofs3.
Import ListNotations.
Open Scope Z_scope.

(** For every list of integers, is_graphic returns and tells whether it is a degree sequence. *)
Theorem C70_is_graphic S : exists b, is_graphic S = Ret b /\ (b = true <-> graphic S).
Proof. apply is_graphic_ok. Qed.
Print Assumptions C70_is_graphic.

(** is_graphic_erdos_gallai accepts every degree sequence ... *)
Theorem C70_erdos_gallai_necessary S : graphic S -> is_graphic_erdos_gallai S = true.
Proof. apply erdos_gallai_necessary. Qed.
Print Assumptions C70_erdos_gallai_necessary.

(** ... and, the theorem of Erdos and Gallai, nothing else among the lists of non-negative integers with an even sum. *)
Theorem C70_erdos_gallai S : (forall e, In e S -> 0 <= e) -> Z.even (zsum S) = true -> (is_graphic_erdos_gallai S = true <-> graphic S).
Proof. intros N E. split; [apply erdos_gallai_sufficient; assumption|apply erdos_gallai_necessary]. Qed.
Print Assumptions C70_erdos_gallai.

(** Degrees are non-negative and, every edge being counted twice, their sum is even.  So the list is a degree sequence exactly
    if in addition to the answer True these two conditions hold, which the code does not check. *)
Theorem C70_erdos_gallai_exact S : graphic S <-> (forall e, In e S -> 0 <= e) /\ Z.even (zsum S) = true /\ is_graphic_erdos_gallai S = true.
Proof.
  split.
  - intros G. split; [intros e He; apply (graphic_range S e G He)|]. split; [apply graphic_even, G|apply erdos_gallai_necessary, G].
  - intros (N & E & T). apply erdos_gallai_sufficient; assumption.
Qed.
Print Assumptions C70_erdos_gallai_exact.

(** Where they hold the two functions agree. *)
Theorem C70_agree S : (forall e, In e S -> 0 <= e) -> Z.even (zsum S) = true -> is_graphic S = Ret (is_graphic_erdos_gallai S).
Proof.
  intros N E. destruct (is_graphic_ok S) as (b & -> & H). f_equal. pose proof (C70_erdos_gallai S N E) as H'.
  destruct b, (is_graphic_erdos_gallai S); try reflexivity; [symmetry; apply H', H; reflexivity|apply H, H'; reflexivity].
Qed.
Print Assumptions C70_agree.

(** It does not check that the sum is even: True for 2m + 1 vertices of degree 1, for every m >= 1 ... *)
Theorem C70_erdos_gallai_parity_refuted m : 1 <= m -> let S := repeat 1 (Z.to_nat (2 * m + 1)) in is_graphic_erdos_gallai S = true /\ ~ graphic S.
Proof.
  intros Hm S. split.
  - unfold is_graphic_erdos_gallai. apply eg_loop_ok. intros A t B E.
    assert (P : Permutation (A ++ t :: B) S) by (rewrite <- E, <- Permutation_rev; apply zsort_perm).
    assert (One : forall e, In e (A ++ t :: B) -> e = 1) by (intros e He; apply (Permutation_in _ P), repeat_spec in He; exact He).
    assert (Len : (length A + Datatypes.S (length B) = Z.to_nat (2 * m + 1))%nat) by (apply Permutation_length in P; unfold S in P; rewrite app_length, repeat_length in P; exact P).
    assert (All : forall l, (forall e, In e l -> e = 1) -> zsum l = Z.of_nat (length l)).
    { induction l as [|x l IH]; intros H; [reflexivity|]. rewrite zsum_cons, IH by (intros e He; apply H; right; exact He). rewrite (H x) by (left; reflexivity). cbn [length]. lia. }
    rewrite (All A) by (intros e He; apply One, in_app_iff; auto). rewrite (One t) by (apply in_app_iff; right; left; reflexivity).
    rewrite (map_ext_in _ (fun e => e)); [rewrite map_id, (All B) by (intros e He; apply One, in_app_iff; right; right; exact He)|].
    + rewrite !Z.add_0_l. destruct A as [|a A]; [cbn [length] in *; lia|]. cbn [length] in *. nia.
    + intros e He. rewrite (One e) by (apply in_app_iff; right; right; exact He). lia.
  - intros G. apply graphic_even in G. unfold S in G. replace (zsum (repeat 1 (Z.to_nat (2 * m + 1)))) with (1 + 2 * m) in G; [rewrite Z.even_add_mul_2 in G; discriminate|].
    assert (R : forall k, zsum (repeat 1 k) = Z.of_nat k) by (induction k as [|k IH]; [reflexivity|cbn [repeat]; rewrite zsum_cons, IH; lia]). rewrite R. lia.
Qed.
Print Assumptions C70_erdos_gallai_parity_refuted.

(** ... nor that the entries are non-negative: True for every single negative number. *)
Theorem C70_erdos_gallai_negative_refuted d : d < 0 -> is_graphic_erdos_gallai [d] = true /\ ~ graphic [d].
Proof.
  intros H. split; [|intros G; pose proof (graphic_range [d] d G (or_introl eq_refl)); lia].
  unfold is_graphic_erdos_gallai. cbn. destruct (Z.ltb_spec 0 (0 + d)); [lia|]. destruct d; try lia; reflexivity.
Qed.
Print Assumptions C70_erdos_gallai_negative_refuted.

Example C70_ex1 : is_graphic [5; 5; 4; 3; 2; 2; 2; 1] = Ret true. Proof. reflexivity. Qed.
Example C70_ex2 : is_graphic [5; 5; 4; 4; 2; 2; 1; 1] = Ret true. Proof. reflexivity. Qed.
Example C70_ex3 : is_graphic [5; 5; 5; 4; 2; 1; 1; 1] = Ret false. Proof. reflexivity. Qed.
(** A triangle, a degree sequence. *)
Example C70_ex4 : graphic [2; 2; 2].
Proof. destruct (C70_is_graphic [2; 2; 2]) as (b & E & H). apply H. vm_compute in E. congruence. Qed.
(** Both functions on a list with the hypotheses of [C70_agree]. *)
Example C70_ex5 : Z.even (zsum [5; 5; 5; 4; 2; 1; 1; 1]) = true /\ is_graphic_erdos_gallai [5; 5; 5; 4; 2; 1; 1; 1] = false /\ is_graphic_erdos_gallai [5; 5; 4; 4; 2; 2; 1; 1] = true.
Proof. repeat split. Qed.
