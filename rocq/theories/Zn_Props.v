(** * Theorems about zn_arithmetic.py (C10) *)
From Coq Require Import ZArith List Lia.
From Verif Require Import Base Core_Model Zn_Model.
From Verif Require Zn_Proofs.
Import ListNotations.
Open Scope Z_scope.

(** The increasing list of exactly the [x] in [0, n) with [a*x = b (mod n)]. *)
Theorem C10_linear_congruence : forall a b n, 2 <= n ->
  linear_congruence a b n = Ret (filter (fun x => (a * x - b) mod n =? 0) (zrange 0 n)).
Proof. exact Zn_Proofs.linear_congruence_correct. Qed.

Theorem C10_linear_congruence_error : forall a b n, n < 2 ->
  linear_congruence a b n = Raise ValueError.
Proof. intros a b n H. unfold linear_congruence. destruct (Z.ltb_spec n 2); [reflexivity|lia]. Qed.

Example C10_ex : linear_congruence 6 4 10 = Ret [4; 9] /\ linear_congruence (-10) 6 12 = Ret [3; 9].
Proof. vm_compute. auto. Qed.

Print Assumptions C10_linear_congruence.
