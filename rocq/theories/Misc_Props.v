(** * C78: numbers with many divisors, Bernoulli numbers, largest divisors (misc.py) *)
From Coq Require Import ZArith List Bool Lia Znumtheory Sorting.Sorted Sorting.Permutation QArith Qcanon.
From Verif Require Import Base Sums Lists Lists2 NT NT_Euler Arith_Spec Enum_Proofs PrimeList_Data PrimeList_Proofs Misc_Spec Misc_Model Misc_Proofs Misc_Proofs2.
Import ListNotations.
Open Scope Z_scope.

(** maximize_divisors(B), when [B] is below a product of distinct primes up to 1000000
    (the table of primes the code searches in): the largest number of divisors among
    [1..B], and a number that has it. *)
Theorem C78_maximize_divisors B l : NoDup l -> (forall p, In p l -> prime p /\ p <= 1000000) -> 1 <= B < zprod l ->
  exists t m, maximize_divisors B = (t, m) /\ 1 <= m <= B /\ tau m = t /\ forall x, 1 <= x <= B -> tau x <= t.
Proof.
  intros N P HB. destruct (maximize_ok B) as (t & m & E & Hm & Ht & M); [|exists t, m; auto].
  split; [lia|]. apply Z.lt_le_trans with (zprod l); [lia|]. apply Z.divide_pos_le.
  - assert (F : Forall prime PRIME_LIST) by (apply Forall_forall; intros x Hx; apply PRIME_LIST_In in Hx; apply Hx). clear - F. induction F as [|x ll Hx F IH]; [reflexivity|]. change (zprod (x :: ll)) with (x * zprod ll). pose proof (prime_ge_2 x Hx). nia.
  - apply divisible_all; [exact N|apply Forall_forall; intros p Hp; apply P, Hp|]. intros q Hq. assert (I : In q PRIME_LIST) by (apply PRIME_LIST_In, P, Hq). clear - I. induction PRIME_LIST as [|x ll IH]; [destruct I|]. change (zprod (x :: ll)) with (x * zprod ll). destruct I as [->|I]; [apply Z.divide_factor_l|apply Z.divide_mul_r, IH, I].
Qed.
Print Assumptions C78_maximize_divisors.

(** In particular for every [B] of fewer than 78498 bits. *)
Theorem C78_maximize_divisors_bits B b : 0 <= b <= 78498 -> 1 <= B < 2 ^ b ->
  exists t m, maximize_divisors B = (t, m) /\ 1 <= m <= B /\ tau m = t /\ forall x, 1 <= x <= B -> tau x <= t.
Proof.
  intros Hb HB. apply C78_maximize_divisors with PRIME_LIST; [apply sorted_lt_NoDup, PRIME_LIST_sorted|apply PRIME_LIST_In|].
  split; [lia|]. apply Z.lt_le_trans with (2 ^ b); [lia|]. apply Z.le_trans with (2 ^ Z.of_nat (length PRIME_LIST)); [apply Z.pow_le_mono_r; [lia|rewrite PRIME_LIST_length; lia]|].
  assert (F : Forall prime PRIME_LIST) by (apply Forall_forall; intros x Hx; apply PRIME_LIST_In in Hx; apply Hx). clear - F. induction F as [|x ll Hx F IH]; [cbn; lia|]. change (zprod (x :: ll)) with (x * zprod ll). pose proof (prime_ge_2 x Hx).
  cbn [length]. rewrite Nat2Z.inj_succ, Z.pow_succ_r by lia. pose proof (Z.pow_pos_nonneg 2 (Z.of_nat (length ll)) ltac:(lia) ltac:(lia)). nia.
Qed.
Print Assumptions C78_maximize_divisors_bits.

Example C78_maximize_divisors_1000 : (0 <= 10 <= 78498 /\ 1 <= 1000 < 2 ^ 10) /\ maximize_divisors 1000 = (32, 840) /\ tau 840 = 32.
Proof. split; [lia|]. split; vm_compute; reflexivity. Qed.

(** bernoulli_list(n) for [n >= 1]: the Bernoulli numbers [B_0, ..., B_n], as exact
    fractions. *)
Theorem C78_bernoulli_list n : 1 <= n -> exists l, bernoulli_list n = Ret l /\ bernoulli_numbers (Z.to_nat n) l.
Proof.
  intros Hn. destruct (bernoulli_list_ok n Hn) as (l & E & L & V). exists l. split; [exact E|]. split; [exact L|]. split; [apply (V 0%nat); lia|].
  intros m Hm. destruct m as [|m]; [lia|]. rewrite <- (bern_rec m). apply qsum_ext. intros k Hk. unfold vat in V. rewrite V by lia. reflexivity.
Qed.
Print Assumptions C78_bernoulli_list.

(** The numbers with an odd index from 3 on, which the loop leaves at their initial value,
    are zero. *)
Theorem C78_bernoulli_odd n l k : bernoulli_numbers n l -> (3 <= k <= n)%nat -> Nat.odd k = true -> nth k l (Q2Qc 0) = Q2Qc 0.
Proof.
  intros (L & V0 & R) Hk O. rewrite (bern_unique (fun k => nth k l (Q2Qc 0)) n); [apply bern_odd; [exact O|lia]|exact V0| |lia].
  intros m Hm. exact (R (S m) ltac:(lia)).
Qed.
Print Assumptions C78_bernoulli_odd.

(** For [n = 0], allowed by the documentation, there is no [values[1]]. *)
Theorem C78_bernoulli_list_zero_refuted : bernoulli_list 0 = Raise IndexError.
Proof. vm_compute. reflexivity. Qed.
Print Assumptions C78_bernoulli_list_zero_refuted.

Example C78_bernoulli_4 : 1 <= 4 /\ bernoulli_list 4 = Ret (map Q2Qc [1; - (1 # 2); 1 # 6; 0; - (1 # 30)]%Q).
Proof. split; [lia|]. vm_compute. reflexivity. Qed.

(** largest_divisor(n, b), "the largest divisor of n not exceeding b": right when [b]
    divides [n]; otherwise it raises, since the package it takes [factor] from does not
    have it. *)
Theorem C78_largest_divisor n b : 1 <= b -> (b | n) ->
  exists d, largest_divisor n b = Ret d /\ (d | n) /\ d <= b /\ forall d', (d' | n) -> d' <= b -> d' <= d.
Proof.
  intros Hb D. exists b. split; [|split; [exact D|split; [lia|auto]]]. unfold largest_divisor, pymod. destruct (Z.eqb_spec b 0); [lia|]. cbn [bind]. rewrite (proj2 (Z.mod_divide n b ltac:(lia)) D). reflexivity.
Qed.
Print Assumptions C78_largest_divisor.

Theorem C78_largest_divisor_refuted n b : 1 <= b -> ~ (b | n) -> largest_divisor n b = Raise AttributeError.
Proof.
  intros Hb D. unfold largest_divisor, pymod. destruct (Z.eqb_spec b 0); [lia|]. cbn [bind]. destruct (Z.eqb_spec (n mod b) 0) as [X|]; [|reflexivity]. apply Z.mod_divide in X; [contradiction|lia].
Qed.
Print Assumptions C78_largest_divisor_refuted.

Example C78_largest_divisor_12 : largest_divisor 12 4 = Ret 4 /\ largest_divisor 12 5 = Raise AttributeError.
Proof. vm_compute. auto. Qed.
