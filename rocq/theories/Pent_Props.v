(** * C79: partition numbers, the eta series and its 24th power *)
From Coq Require Import ZArith List Lia Bool Sorting.Sorted.
From Verif Require Import Base Sums Count Poly_Spec Poly_Proofs Poly_Proofs2 Pent_Spec Pent_Model Pent_Proofs Pent_Proofs3.
Import ListNotations.
Open Scope Z_scope.

(** partition_list(n) lists the numbers of partitions of 0, 1, ..., n.  The bound keeps the
    floating point square root of line 172 exact enough; a list of 2^45 integers does not fit into memory. *)
Theorem C79_partition_list n : 1 <= n < 2 ^ 45 ->
  exists l, partition_list n = Ret l /\ Z.of_nat (length l) = n + 1 /\ forall k, 0 <= k <= n -> number_of (is_partition k) (nth (Z.to_nat k) l 0).
Proof.
  intros Hn. destruct (partition_list_ok n Hn) as (l & E & L & V). exists l. split; [exact E|]. split; [exact L|]. intros k Hk.
  pose proof (V k Hk) as X. unfold rd in X. destruct (Z.ltb_spec k 0); [lia|]. rewrite X. apply p_number.
Qed.
Print Assumptions C79_partition_list.

Theorem C79_partition_number n : 1 <= n < 2 ^ 45 -> exists v, partition_number n = Ret v /\ number_of (is_partition n) v.
Proof. intros Hn. exists (p n). split; [apply partition_number_ok, Hn|apply p_number]. Qed.
Print Assumptions C79_partition_number.

(** For n = 0 there is no entry 1 to initialise. *)
Theorem C79_partition_list_zero_refuted n : n <= 0 -> partition_list n = Raise IndexError /\ partition_number n = Raise IndexError.
Proof. intros Hn. unfold partition_number. rewrite partition_list_nonpos by exact Hn. split; reflexivity. Qed.
Print Assumptions C79_partition_list_zero_refuted.

(** rth_power_partition_number(r, n), "the nth coefficient of the rth power of the
    generating function": right for n = 0 and for r = 1 ... *)
Theorem C79_rth_power r n : (n = 0 -> rth_power_partition_number r n = Ret 1) /\
  (1 <= n < 2 ^ 45 -> exists v, rth_power_partition_number 1 n = Ret v /\ number_of (is_partition n) v).
Proof.
  split; [apply rth_ok|]. intros Hn. rewrite (proj1 (proj2 (rth_ok 1 n))) by lia. apply C79_partition_number, Hn.
Qed.
Print Assumptions C79_rth_power.
(** ... and in every other case it raises, because it asks for partition_number(0). *)
Theorem C79_rth_power_refuted r n : 1 <= n -> r <> 1 -> rth_power_partition_number r n = Raise IndexError.
Proof. apply rth_ok. Qed.
Print Assumptions C79_rth_power_refuted.

Example C79_partition_example : (exists l, partition_list 10 = Ret l /\ nth 10 l 0 = 42) /\ is_partition 10 [5; 3; 1; 1] /\ partition_number 5 = Ret 7 /\ rth_power_partition_number 2 3 = Raise IndexError.
Proof.
  split; [eexists; split; vm_compute; reflexivity|]. split; [|vm_compute; split; reflexivity].
  split; [repeat constructor; lia|]. split; [|reflexivity]. repeat constructor; lia.
Qed.

(** eta_series(prec): the first [prec] coefficients of the product of (1 - x^i), i >= 1
    (the factors with i > m do not touch the coefficient of x^m). *)
Theorem C79_eta_series prec : 1 <= prec ->
  exists l, eta_series prec = Ret l /\ Z.of_nat (length l) = prec /\ forall m N, 0 <= m < prec -> (Z.to_nat m <= N)%nat -> coef l m = euler_product N m.
Proof.
  intros H. destruct (eta_series_ok prec H) as (l & E & L & V). exists l. split; [exact E|]. split; [exact L|]. intros m N Hm HN. rewrite euler_product_R. apply V; lia.
Qed.
Print Assumptions C79_eta_series.

(** delta_series(n): the first [n] coefficients of the 24th power of that product. *)
Theorem C79_delta_series n : 1 <= n ->
  exists l, delta_series n = Ret l /\ Z.of_nat (length l) = n /\ forall m N, 0 <= m < n -> (Z.to_nat m <= N)%nat -> coef l m = cpow (euler_product N) 24 m.
Proof.
  intros H. destruct (delta_series_ok n H) as (l & E & L & V). exists l. split; [exact E|]. split; [exact L|]. intros m N Hm HN. rewrite (cpow_ext _ (R 0 (Z.of_nat N))) by apply euler_product_R. apply V; lia.
Qed.
Print Assumptions C79_delta_series.

Theorem C79_eta_empty prec : prec <= 0 -> eta_series prec = Raise IndexError /\ delta_series prec = Raise IndexError.
Proof.
  intros H. unfold delta_series, eta_series. assert (E : Poly_Model.zeros prec = []) by (unfold Poly_Model.zeros; replace (Z.to_nat prec) with 0%nat by lia; reflexivity). rewrite E. split; reflexivity.
Qed.
Print Assumptions C79_eta_empty.

Example C79_eta_example : eta_series 8 = Ret [1; -1; -1; 0; 0; 1; 0; 1] /\ euler_product 7 7 = 1 /\ delta_series 4 = Ret [1; -24; 252; -1472].
Proof. vm_compute. repeat split; reflexivity. Qed.
