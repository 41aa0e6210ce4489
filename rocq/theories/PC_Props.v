(** * C26: counting and summing primes *)
From Coq Require Import ZArith List Bool Lia Znumtheory.
From Verif Require Import Base Dict Sums Primes_Spec Primes_Props PC_Model PC_Spec PC_Proofs PC_Proofs2 PC_Proofs3 PC_Proofs4 PC_Proofs5 PC_Proofs6 PC_Proofs10 PC_Proofs14.
Import ListNotations.
Open Scope Z_scope.

(** Legendre's method counts the primes <= n, for every n. *)
Theorem C26_legendre n : exists k, legendre n = Ret k /\ prime_count_is n k.
Proof. apply legendre_ok. Qed.

(** So does Meissel's, if the floating-point roots it takes are exact. *)
Theorem C26_meissel fsqrt fcbrt n : floats_exact n fsqrt fcbrt -> exists k, meissel fsqrt fcbrt n = Ret k /\ prime_count_is n k.
Proof. apply meissel_ok. Qed.

(** Lehmer's method is right if, for every prime q > n^(1/4), there is a prime between n//q and n^(3/4), or n is in the table. *)
Theorem C26_lehmer fsqrt n : sqrt_exact n fsqrt ->
  n <= 999983 \/ (forall q, prime q -> n < q ^ 4 -> exists p, prime p /\ n / q < p /\ p ^ 4 <= n ^ 3) -> exists k, lehmer fsqrt n = Ret k /\ prime_count_is n k.
Proof. intros Fl H. apply lehmer_right; assumption. Qed.
(** Otherwise its answer is too small ... *)
Theorem C26_lehmer_refuted fsqrt n q : sqrt_exact n fsqrt -> 999983 < n -> prime q -> n < q ^ 4 -> (forall p, prime p -> n / q < p -> p ^ 4 <= n ^ 3 -> False) ->
  exists k m, lehmer fsqrt n = Ret k /\ prime_count_is n m /\ k < m.
Proof. intros Fl. apply lehmer_wrong, Fl. Qed.
(** ... for instance for n = p^4 - 1, for every prime p >= 37. *)
Theorem C26_lehmer_powers_refuted fsqrt p : prime p -> 37 <= p -> sqrt_exact (p ^ 4 - 1) fsqrt ->
  exists k m, lehmer fsqrt (p ^ 4 - 1) = Ret k /\ prime_count_is (p ^ 4 - 1) m /\ k < m.
Proof. apply lehmer_wrong_p4. Qed.

(** The method of Lagarias, Miller and Odlyzko, for every x ... *)
Theorem C26_lmo x : exists k, lmo x = Ret k /\ prime_count_is x k.
Proof. apply lmo_ok. Qed.
(** ... and its version with the array, for x >= 8, when the three floating-point powers have the right integer parts. *)
Theorem C26_lmo_bit x root t s : 8 <= x -> roots_exact x root t s -> exists k, lmo_bit root t s x = Ret k /\ prime_count_is x k.
Proof. apply lmo_bit_ok. Qed.
(** The exponent 0.33333333333333 is less than 1/3, and the integer part of the power of a cube p^3 is p - 1.  The answer is then too large by one for every odd prime p. *)
Theorem C26_lmo_bit_cubes_refuted p s : prime p -> 3 <= p -> 0 <= s -> s ^ 2 <= p ^ 3 < (s + 1) ^ 2 -> exists k, lmo_bit (p ^ 2) (p - 1) s (p ^ 3) = Ret (k + 1) /\ prime_count_is (p ^ 3) k.
Proof. apply lmo_bit_cube. Qed.
(** Below 8 it raises IndexError. *)
Theorem C26_lmo_bit_small_refuted x root t s : 0 <= x < 8 -> roots_exact x root t s -> lmo_bit root t s x = Raise IndexError.
Proof. apply lmo_bit_small. Qed.

(** The number of primes is unique, so the methods agree. *)
Theorem C26_unique n k k' : prime_count_is n k -> prime_count_is n k' -> k = k'.
Proof. intros (l & L & ->) (l' & L' & ->). rewrite (C14_unique n l l' L L'). reflexivity. Qed.

(** The sum of the primes <= n, by two methods. *)
Theorem C26_prime_sum n : 1 <= n -> exact_sqrt_range n -> exists s, prime_sum n = Ret s /\ prime_sum_is n s.
Proof. apply prime_sum_ok. Qed.
Theorem C26_prime_sum2 n : 1 <= n -> exists s, prime_sum2 n = Ret s /\ prime_sum_is n s.
Proof. apply prime_sum2_ok. Qed.
(** At zero the sum should be 0. *)
Theorem C26_prime_sum_refuted : prime_sum_is 0 0 /\ prime_sum2 0 = Ret (-1) /\ prime_sum 0 = Raise IndexError.
Proof.
  split; [|vm_compute; split; reflexivity]. exists []. split; [|reflexivity]. split; [constructor|]. intros p. split; [intros []|]. intros (P & L). apply prime_ge_2 in P. lia.
Qed.

(** prime_count(n) maps each quotient n//i >= 2 to the number of the primes up to it. *)
Theorem C26_prime_count n : 1 <= n -> exact_sqrt_range n ->
  exists S, prime_count n = Ret S /\ forall i, 1 <= i <= n -> 2 <= n / i -> exists k, dget S (n / i) = Some k /\ prime_count_is (n / i) k.
Proof. intros H E. destruct (prime_count_ok n H E) as (S & -> & A & _). exists S. split; [reflexivity|]. intros i Hi L. exists (pi (n / i)). split; [apply A; assumption|apply pi_is]. Qed.
(** But it maps the key 1 to 1, for every n, and there is no prime <= 1. *)
Theorem C26_prime_count_refuted n : 1 <= n -> exact_sqrt_range n -> exists S, prime_count n = Ret S /\ dget S 1 = Some 1 /\ prime_count_is 1 0.
Proof. intros H E. destruct (prime_count_ok n H E) as (S & -> & _ & _ & A). exists S. split; [reflexivity|]. split; [exact A|apply no_primes; lia]. Qed.

(** pi_table(n) returns the primes <= n and the table of the counts for 0, ..., n. *)
Theorem C26_pi_table n : 2 <= n ->
  exists ps t, pi_table n = Ret (ps, t) /\ primes_upto n ps /\ Z.of_nat (length t) = n + 1 /\ forall i, 0 <= i <= n -> prime_count_is i (nth (Z.to_nat i) t 0).
Proof.
  intros H. destruct (pi_table_ok n H) as (ps & t & -> & U & L & T). exists ps, t. split; [reflexivity|]. split; [exact U|]. split; [exact L|]. intros i Hi. pose proof (T i Hi) as E. unfold rd in E. destruct (Z.ltb_spec i 0); [lia|]. rewrite E. apply pi_is.
Qed.
(** With no primes the loop variable is unbound. *)
Theorem C26_pi_table_small_refuted n : n < 2 -> pi_table n = Raise UnboundLocalError.
Proof. apply pi_table_small. Qed.

(** ** The hypotheses are met, and the values are not trivial *)
Example C26_ex_floats : floats_exact 26 Z.sqrt (fun x => if x <? 1 then 0 else if x <? 8 then 1 else 2).
Proof. intros x H. split; [reflexivity|]. destruct (Z.ltb_spec x 1); [lia|]. destruct (Z.ltb_spec x 8); lia. Qed.
Example C26_ex : legendre 100 = Ret 25 /\ prime_sum 100 = Ret 1060 /\ prime_sum2 100 = Ret 1060 /\ pi_table 10 = Ret ([2; 3; 5; 7], [0; 0; 1; 2; 2; 3; 3; 4; 4; 4; 4]) /\
  prime_count 20 = Ret [(20, 8); (10, 4); (6, 3); (5, 3); (4, 2); (3, 2); (2, 1); (1, 1)].
Proof. vm_compute. repeat split; reflexivity. Qed.

Lemma trial p : 2 <= p -> forallb (fun k => negb (p mod k =? 0)) (zrange 2 (Z.sqrt p + 1)) = true -> prime p.
Proof.
  intros H F. destruct (prime_dec p) as [P|N]; [exact P|exfalso]. destruct (small_factor p H N) as (q & Q & D & L). pose proof (prime_ge_2 q Q). rewrite forallb_forall in F. specialize (F q).
  assert (q <= Z.sqrt p) by (apply (proj1 (Z.sqrt_le_square p q ltac:(lia) ltac:(lia))), L). assert (I : In q (zrange 2 (Z.sqrt p + 1))) by (apply zrange_In; lia). apply F in I. apply Z.mod_divide in D; [|lia]. rewrite D in I. discriminate.
Qed.
(** The condition for Lehmer's method holds at 10^6. *)
Example C26_ex_lehmer : forall q, prime q -> 10 ^ 6 < q ^ 4 -> exists p, prime p /\ 10 ^ 6 / q < p /\ p ^ 4 <= (10 ^ 6) ^ 3.
Proof.
  intros q P H. exists 31607. split; [apply trial; [lia|vm_compute; reflexivity]|]. split; [|vm_compute; discriminate].
  assert (32 <= q). { destruct (Z_le_gt_dec 32 q) as [|L]; [assumption|exfalso]. pose proof (prime_ge_2 q P). assert (q ^ 4 <= 31 ^ 4) by (apply Z.pow_le_mono_l; lia). lia. }
  apply Z.div_lt_upper_bound; lia.
Qed.
Example C26_ex_lehmer_wrong : prime 37 /\ sqrt_exact (37 ^ 4 - 1) Z.sqrt.
Proof. split; [apply trial; [lia|vm_compute; reflexivity]|intros x _; reflexivity]. Qed.

Example C26_ex_lmo_bit : roots_exact 100 21 4 10 /\ lmo_bit 21 4 10 100 = Ret 25 /\ lmo_bit 9 2 5 27 = Ret 10 /\ legendre 27 = Ret 9.
Proof. vm_compute. repeat split; discriminate || reflexivity. Qed.

Print Assumptions C26_legendre.
Print Assumptions C26_lmo.
Print Assumptions C26_lmo_bit.
Print Assumptions C26_lmo_bit_cubes_refuted.
Print Assumptions C26_lmo_bit_small_refuted.
Print Assumptions C26_lehmer.
Print Assumptions C26_lehmer_refuted.
Print Assumptions C26_lehmer_powers_refuted.
Print Assumptions C26_meissel.
Print Assumptions C26_prime_sum.
Print Assumptions C26_prime_sum2.
Print Assumptions C26_prime_count.
Print Assumptions C26_pi_table.
