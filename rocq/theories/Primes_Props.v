(** * Properties of the primes package: C14 C15 C16 C17 C20 C71 *)
From Coq Require Import ZArith List Bool Lia Znumtheory Sorted.
From Verif Require Import Base Py NT PrimeList_Data PrimeList_Proofs Primes_Spec Sieves_Model
  Sieves_Proofs Sieves_Proofs2 TrialDiv_Model Primality_Model Primality_Spec Primality_Proofs.
Import ListNotations.
Open Scope Z_scope.

(** ** C14: the sieves *)
Theorem C14_primes : forall n, exists l, primes n = Ret l /\ primes_upto n l.
Proof. exact primes_correct. Qed.

Theorem C14_eratosthenes1 : forall n, exists l, eratosthenes1 n = Ret l /\ primes_upto n l.
Proof. exact eratosthenes1_correct. Qed.

Theorem C14_eratosthenes2 : forall n, exists l, eratosthenes2 n = Ret l /\ primes_upto n l.
Proof. exact eratosthenes2_correct. Qed.

Theorem C14_luo : forall n, exists l, luo n = Ret l /\ primes_upto n l.
Proof. exact luo_correct. Qed.

Theorem C14_pritchard : forall n, exists l, pritchard n = Ret l /\ primes_upto n l.
Proof. exact pritchard_correct. Qed.

(** Hence all of them return the same list. *)
Theorem C14_unique : forall n l l', primes_upto n l -> primes_upto n l' -> l = l'.
Proof. exact primes_upto_unique. Qed.

Theorem C14_primes_first_n : forall float_bound n, 0 <= n < 78498 ->
  exists l, primes_first_n float_bound n = Ret l /\ first_primes n l.
Proof. exact primes_first_n_table. Qed.

(** For larger [n], whenever the float estimate is at least the [n]-th prime. *)
Theorem C14_primes_first_n_large : forall float_bound n l, 78498 <= n ->
  primes_upto (float_bound n) l -> n <= Z.of_nat (length l) ->
  exists l', primes_first_n float_bound n = Ret l' /\ first_primes n l'.
Proof. exact primes_first_n_large. Qed.

Example C14_ex : eratosthenes1 30 = Ret [2; 3; 5; 7; 11; 13; 17; 19; 23; 29] /\
  eratosthenes2 30 = Ret [2; 3; 5; 7; 11; 13; 17; 19; 23; 29] /\
  luo 31 = Ret [2; 3; 5; 7; 11; 13; 17; 19; 23; 29; 31] /\
  pritchard 31 = Ret [2; 3; 5; 7; 11; 13; 17; 19; 23; 29; 31].
Proof. vm_compute. auto. Qed.

(** ** C17: the table *)
Theorem C17_prime_table : primes_upto (10 ^ 6) PRIME_LIST.
Proof. split; [exact PRIME_LIST_sorted|exact PRIME_LIST_In]. Qed.

Theorem C17_prime_table_size : Z.of_nat (length PRIME_LIST) = 78498 /\ last PRIME_LIST 0 = 999983.
Proof. split; [exact PRIME_LIST_length|exact PRIME_LIST_last]. Qed.

(** ** C71: prime_range *)
(** For [b <= 10^7] the primes of the closed interval [[a, b]] are yielded. *)
Theorem C71_prime_range_small : forall a b, b <= 10 ^ 7 ->
  exists l, prime_range a (Some b) = Ret l /\ primes_between a b l.
Proof. exact prime_range_small. Qed.

(** For larger [b] the segmented sieve yields the primes of [[a, b)] when
    [a > isqrt(b) + 1], but those of [(max 2 a, b)] when [a <= isqrt(b)]. *)
Theorem C71_prime_range_large : forall a b, 10 ^ 7 < b < 2 ^ 104 -> a < b ->
  exists l, prime_range a (Some b) = Ret l /\
    (Z.sqrt b + 1 < a -> primes_between a (b - 1) l) /\
    (a <= Z.sqrt b -> primes_between (Z.max 2 a + 1) (b - 1) l) /\
    (primes_between a (b - 1) l \/ primes_between (Z.max 2 a + 1) (b - 1) l).
Proof.
  intros a b Hb Hab. destruct (prime_range_large a b Hb Hab) as (l & E & (H1 & H2) & H3).
  assert (C : forall x, primes_in x b l -> primes_between x (b - 1) l).
  { intros x [S P]. split; [exact S|]. intros p. rewrite P. split; intros [? ?]; (split; [assumption|lia]). }
  exists l. split; [exact E|]. split; [auto|]. split; [auto|]. destruct H3; auto.
Qed.

(** So the documented interval [[a, b)] is not what is returned: [b] itself is
    included when it is a prime [<= 10^7]; *)
Theorem C71_prime_range_small_refuted : forall a b, 0 < a < b -> b <= 10 ^ 7 -> prime b ->
  exists l, prime_range a (Some b) = Ret l /\ In b l.
Proof.
  intros a b Hab Hb Hp. destruct (prime_range_small a b ltac:(lia)) as (l & E & S & P). exists l. split; [exact E|]. apply P. split; [exact Hp|lia].
Qed.

(** and for [b > 10^7] the prime [a] is missed when [a <= isqrt(b)]. *)
Theorem C71_prime_range_large_refuted : forall a b, 10 ^ 7 < b < 2 ^ 104 -> prime a -> a * a <= b ->
  exists l, prime_range a (Some b) = Ret l /\ ~ In a l.
Proof.
  intros a b Hb Hp Ha. pose proof (prime_ge2 a Hp). destruct (C71_prime_range_large a b) as (l & E & _ & H0 & _); [lia|nia|].
  exists l. split; [exact E|]. destruct H0 as [_ H0]; [apply Z.sqrt_le_square; lia|]. rewrite H0. lia.
Qed.

Example C71_ex : prime_range 10 (Some 20) = Ret [11; 13; 17; 19].
Proof.
  destruct (prime_range_small 10 20 ltac:(lia)) as (l & E & S & P). rewrite E. f_equal.
  destruct (eratosthenes1_correct 20) as (l' & E' & S' & P').
  assert (El : l' = [2; 3; 5; 7; 11; 13; 17; 19]).
  { assert (X : eratosthenes1 20 = Ret [2; 3; 5; 7; 11; 13; 17; 19]) by (vm_compute; reflexivity). congruence. }
  assert (Q : filter (fun x => 10 <=? x) l' = [11; 13; 17; 19]) by (rewrite El; reflexivity).
  rewrite <- Q. apply Lists.sorted_lt_ext; [exact S|apply Lists.filter_sorted, S'|].
  intros x. rewrite filter_In, P', P, Z.leb_le. tauto.
Qed.

(** ** C15: probabilistic tests *)
Theorem C15_miller_rabin : forall p a, prime p -> 2 < p -> 1 <= a < p -> miller_rabin p a = Ret true.
Proof. exact miller_rabin_prime. Qed.

Theorem C15_is_probable_prime : forall p, prime p -> is_probable_prime p = Ret true.
Proof. exact is_probable_prime_prime. Qed.

Theorem C15_is_probable_prime_total : forall n, exists b, is_probable_prime n = Ret b.
Proof. exact is_probable_prime_total. Qed.

(** The converse fails: this product is accepted. *)
Theorem C15_is_probable_prime_composite : exists n, 1 < n /\ ~ prime n /\ is_probable_prime n = Ret true.
Proof.
  exists 341550071728321. split; [lia|]. split.
  - replace 341550071728321 with (10670053 * 32010157) by reflexivity. apply prime_not_prime_mul; lia.
  - vm_compute. reflexivity.
Qed.

Example C15_ex : miller_rabin 1000003 2 = Ret true /\ miller_rabin 1000001 2 = Ret false.
Proof. vm_compute. auto. Qed.

(** ** C16 *)
Theorem C16_is_prime : forall n, exists b, is_prime n = Ret b /\ (b = true <-> prime n).
Proof. exact is_prime_correct. Qed.

Theorem C16_next_prime : forall n, 1 <= n -> exists r, next_prime n = Ret r /\ least_prime_above n r.
Proof. exact next_prime_correct. Qed.

Theorem C16_next_prime_nonpos : forall n, n <= 0 -> next_prime n = Ret 3.
Proof. exact next_prime_nonpos. Qed.

(** [next_probable_prime] never overshoots a prime. *)
Theorem C16_next_probable_prime : forall n, 2 <= n ->
  exists r, next_probable_prime n = Ret r /\ n < r /\ is_probable_prime r = Ret true /\
    forall q, prime q -> n < q -> r <= q.
Proof.
  intros n Hn. unfold next_probable_prime. destruct (Z.eqb_spec n 1); [lia|].
  destruct (next_generic is_probable_prime n Hn is_probable_prime_total) as (r & E & R1 & _ & R2 & _ & R3).
  - intros q Hq _. apply is_probable_prime_prime, Hq.
  - exists r. auto.
Qed.

(** Whatever is drawn, the value returned by [random_prime] is a prime that was drawn. *)
Theorem C16_random_prime : forall draws r, random_prime draws = Ret (Some r) -> In r draws /\ prime r.
Proof.
  induction draws as [|n draws IH]; intros r H; cbn [random_prime] in H; [discriminate|].
  destruct (is_prime_correct n) as (b & E & B). rewrite E in H. cbn [bind] in H. destruct b.
  - injection H as <-. split; [left; reflexivity|apply B; reflexivity].
  - destruct (IH r H). split; [right; assumption|assumption].
Qed.

Theorem C16_random_prime_complete : forall draws, (exists p, In p draws /\ prime p) ->
  exists r, random_prime draws = Ret (Some r).
Proof.
  induction draws as [|n draws IH]; intros (p & Hin & Hp); [destruct Hin|]. cbn [random_prime].
  destruct (is_prime_correct n) as (b & E & B). rewrite E. cbn [bind]. destruct b; [eauto|].
  apply IH. destruct Hin as [->|Hin]; [apply B in Hp; discriminate|eauto].
Qed.

Example C16_ex : exists r, next_prime 113 = Ret r /\ r = 127.
Proof.
  destruct (next_prime_correct 113 ltac:(lia)) as (r & E & R1 & R2 & R3). exists r. split; [exact E|].
  destruct (eratosthenes1_correct 130) as (l & El & S & P).
  assert (L : eratosthenes1 130 = Ret [2; 3; 5; 7; 11; 13; 17; 19; 23; 29; 31; 37; 41; 43; 47; 53; 59; 61; 67; 71; 73; 79; 83; 89; 97; 101; 103; 107; 109; 113; 127])
    by (vm_compute; reflexivity).
  assert (H127 : prime 127). { apply P. rewrite El in L. injection L as ->. cbn; tauto. }
  specialize (R3 127 H127 ltac:(lia)).
  assert (Hr : In r l) by (apply P; split; [exact R1|lia]).
  rewrite El in L. injection L as ->. cbn in Hr. lia.
Qed.

(** ** C20 *)
Theorem C20_trial_division : forall n, 2 <= n ->
  exists r, trial_division n None = Ret r /\ least_prime_factor n r.
Proof. exact trial_unbounded. Qed.

Theorem C20_trial_division_bound : forall n bound,
  exists r, trial_division n (Some bound) = Ret r /\ trial_result n bound r.
Proof. exact trial_bounded. Qed.

Example C20_ex : trial_division 1147 None = Ret 31 /\ trial_division 1147 (Some 30) = Ret 1147.
Proof. vm_compute. auto. Qed.

Print Assumptions C14_primes.
Print Assumptions C14_eratosthenes1.
Print Assumptions C14_eratosthenes2.
Print Assumptions C14_luo.
Print Assumptions C14_pritchard.
Print Assumptions C17_prime_table.
Print Assumptions C71_prime_range_large.
Print Assumptions C15_is_probable_prime.
Print Assumptions C15_is_probable_prime_composite.
Print Assumptions C16_is_prime.
Print Assumptions C16_next_prime.
Print Assumptions C20_trial_division.
Print Assumptions C20_trial_division_bound.
