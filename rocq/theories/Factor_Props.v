(** * Factorization and divisors: C18, C19 *)
From Coq Require Import ZArith List Bool Lia Znumtheory Sorted.
From Verif Require Import Base NT Primality_Model Primality_Proofs Factor_Model Factor_Spec
  Factor_Proofs Rho_Proofs Div_Proofs Div_Proofs2.
Import ListNotations.
Open Scope Z_scope.

(** [factor(n)] with the random numbers [rnd] drawn by its calls of
    [pollard_rho_brent]; [fuel] bounds the rounds of its two outer loops. *)
Definition factor_default (rnd : nat -> Z * Z) (fuel : nat) (n : Z) := factor (rho_find rnd) fuel n.

(** ** C18 *)

(** Whatever is drawn, a returned list has increasing bases, positive exponents,
    product [n], a leading [(-1, 1)] exactly for negative [n]; every other base
    is a prime, or a number above [10^12] accepted by [is_probable_prime]. *)
Theorem C18_factor_sound : forall rnd fuel n l, factor_default rnd fuel n = Ret l ->
  signed_factorization
    (fun q => (prime q \/ (is_probable_prime q = Ret true /\ 10 ^ 12 < q)) /\ (q | n)) n l.
Proof.
  intros rnd fuel n l H. unfold factor_default, factor in H. destruct (Z.eqb_spec n 0); [discriminate|].
  eapply signed_factorization_impl; [|apply (factor_main_sound _ (rho_find_sound rnd) fuel n l); assumption].
  intros q [A D]. split; [exact A|]. apply Z.divide_abs_r. exact D.
Qed.

(** So it is the prime factorization unless a composite divisor of [n] fools
    the probabilistic test. *)
Theorem C18_factor_prime : forall rnd fuel n l, factor_default rnd fuel n = Ret l ->
  (forall q, (q | n) -> 10 ^ 12 < q -> is_probable_prime q = Ret true -> prime q) ->
  signed_factorization prime n l.
Proof.
  intros rnd fuel n l H Q. eapply signed_factorization_impl; [|exact (C18_factor_sound rnd fuel n l H)].
  intros q [[A|[A B]] D]; auto.
Qed.

(** For [0 < |n| <= 10^12] the call returns the prime factorization, without
    drawing any random number. *)
Theorem C18_factor_small : forall rnd fuel n, n <> 0 -> Z.abs n <= 10 ^ 12 -> (1 <= fuel)%nat ->
  exists l, factor_default rnd fuel n = Ret l /\ signed_factorization prime n l.
Proof.
  intros rnd fuel n H0 Hn Hf. unfold factor_default, factor. destruct (Z.eqb_spec n 0); [lia|].
  destruct (factor_main_small (rho_find rnd) fuel n H0 Hn Hf) as (l & E).
  exists l. split; [exact E|]. apply (C18_factor_prime rnd fuel n l).
  - unfold factor_default, factor. destruct (Z.eqb_spec n 0); [lia|exact E].
  - intros q D L _. exfalso. apply Z.divide_abs_r in D. apply Z.divide_pos_le in D; lia.
Qed.

(** Termination for any [n], when the calls of [_factor] on composite numbers
    find proper divisors. *)
Theorem C18_factor_terminates : forall find fuel n,
  (forall i m, 1 < m -> ~ prime m -> exists d, find i m = Ret d /\ (d | m) /\ 1 < d < m) ->
  (forall i m d, 1 < m -> find i m = Ret d -> (d | m) /\ 1 < d) ->
  n <> 0 -> Z.abs n < 2 ^ Z.of_nat fuel -> exists l, factor find fuel n = Ret l.
Proof.
  intros find fuel n L S H0 Hn. unfold factor. destruct (Z.eqb_spec n 0); [lia|].
  apply factor_main_total; try assumption.
  intros i m Hm NP. destruct (L i m Hm NP) as (d & E & _ & ? & ?). eauto.
Qed.

(** [pollard_rho_brent] itself terminates for every [n >= 4] and every drawn pair,
    with a divisor greater than 1. *)
Theorem C18_pollard_rho_brent : forall n c y, 4 <= n ->
  exists g, pollard_rho_brent c y n = Ret g /\ (g | n) /\ 1 < g.
Proof. intros n c y H. apply pollard_rho_brent_ok, H. Qed.

Theorem C18_factor_zero : forall rnd fuel, factor_default rnd fuel 0 = Raise ValueError.
Proof. reflexivity. Qed.

Theorem C18_factorization_unique : forall n l l', factorization n l -> factorization n l' -> l = l'.
Proof. exact factorization_unique. Qed.

(** The exponents are the exact powers dividing [n]. *)
Theorem C18_exponents : forall n l p e, factorization n l ->
  (In (p, e) l <-> prime p /\ 1 <= e /\ (p ^ e | n) /\ ~ (p ^ (e + 1) | n)).
Proof. exact factorization_In. Qed.

Theorem C18_factor_back : forall rnd fuel n l, factor_default rnd fuel n = Ret l -> factor_back l = n.
Proof.
  intros rnd fuel n l H. apply C18_factor_sound in H.
  assert (X : forall l a, fold_left (fun pp '(p, e) => pp * p ^ e) l a = a * fac_value l).
  { clear. induction l as [|[p e] l IH]; intros a; cbn [fold_left]; [unfold fac_value; cbn; lia|].
    rewrite IH, fac_value_cons. ring. }
  unfold factor_back. rewrite X. destruct H as [[_ (_ & _ & V)]|[_ (l' & -> & _ & _ & V)]].
  - lia.
  - rewrite fac_value_cons, V. change ((-1) ^ 1) with (-1). lia.
Qed.

(** Primality of the bases does fail beyond: the product 10670053 * 32010157. *)
Theorem C18_factor_refuted : exists n, forall rnd, exists l,
  factor_default rnd 1 n = Ret l /\ ~ signed_factorization prime n l.
Proof.
  exists 341550071728321. intros rnd. exists [(341550071728321, 1)]. split.
  - vm_compute. reflexivity.
  - intros [[_ (_ & A & _)]|[H _]]; [|lia]. specialize (A 341550071728321 1 (or_introl eq_refl)).
    destruct A as [A _]. revert A. replace 341550071728321 with (10670053 * 32010157) by reflexivity.
    apply prime_not_prime_mul; lia.
Qed.

Example C18_ex : forall rnd, factor_default rnd 1 (-360) = Ret [(-1, 1); (2, 3); (3, 2); (5, 1)].
Proof. intros rnd. vm_compute. reflexivity. Qed.

Example C18_ex_rho : pollard_rho_brent 1 2 8051 = Ret 97.
Proof. vm_compute. reflexivity. Qed.

(** ** C19 *)
Section C19.
  Context (rnd : nat -> Z * Z) (fuel : nat) (Hfuel : (1 <= fuel)%nat).
  Let fact := factor_default rnd fuel.

  Lemma small_fact n : 0 < n <= 10 ^ 12 -> exists l, fact n = Ret l /\ factorization n l.
  Proof.
    intros H. destruct (C18_factor_small rnd fuel n ltac:(lia) ltac:(lia) Hfuel) as (l & E & [[_ F]|[X _]]); [|lia].
    exists l. auto.
  Qed.

  (** All the positive divisors, increasing. *)
  Theorem C19_divisors : forall n, n <> 0 -> Z.abs n <= 10 ^ 12 ->
    exists r, divisors fact (Some n) None = Ret r /\
      StronglySorted Z.lt r /\ forall d, In d r <-> 0 < d /\ (d | n).
  Proof.
    intros n H0 Hn. destruct (small_fact (Z.abs n) ltac:(lia)) as (l & E & F). exact (divisors_ok fact n l E F).
  Qed.

  Theorem C19_xdivisors : forall n, n <> 0 -> Z.abs n <= 10 ^ 12 ->
    exists r, xdivisors fact (Some n) None = Ret r /\ NoDup r /\ forall d, In d r <-> 0 < d /\ (d | n).
  Proof.
    intros n H0 Hn. destruct (small_fact (Z.abs n) ltac:(lia)) as (l & E & F). exact (xdivisors_ok fact n l E F).
  Qed.

  Theorem C19_prime_divisors : forall n, n <> 0 -> Z.abs n <= 10 ^ 12 ->
    exists r, prime_divisors fact (Some n) None = Ret r /\ StronglySorted Z.lt r /\
      forall p, In p r <-> prime p /\ (p | n).
  Proof.
    intros n H0 Hn. destruct (small_fact (Z.abs n) ltac:(lia)) as (l & E & F). exact (prime_divisors_ok fact n l E F).
  Qed.

  Theorem C19_divisor_pairs : forall n, 2 <= n <= 10 ^ 12 ->
    exists r, divisor_pairs fact (Some n) None = Ret r /\ StronglySorted (fun x y => fst x < fst y) r /\
      forall a b, In (a, b) r <-> 0 < a <= b /\ a * b = n.
  Proof.
    intros n Hn. destruct (small_fact n ltac:(lia)) as (l & E & F).
    exact (divisor_pairs_ok fact n l ltac:(lia) E F).
  Qed.

  (** [divisor_pairs(1)] raises although (1, 1) is a pair. *)
  Theorem C19_divisor_pairs_1_refuted : divisor_pairs fact (Some 1) None = Raise IndexError.
  Proof.
    apply divisor_pairs_1. destruct (small_fact 1 ltac:(lia)) as (l & E & F). rewrite E. f_equal.
    apply (factorization_unique 1); [exact F|]. split; [constructor|]. split; [intros p e []|reflexivity].
  Qed.

  (** Unitary divisors: [d] with a coprime cofactor. *)
  Theorem C19_unitary_divisors : forall n, 2 <= n <= 10 ^ 12 ->
    exists r, unitary_divisors fact n None = Ret r /\ StronglySorted Z.lt r /\
      forall d, In d r <-> 0 < d /\ exists c, n = d * c /\ Z.gcd d c = 1.
  Proof.
    intros n Hn. destruct (small_fact n ltac:(lia)) as (l & E & F).
    exact (unitary_divisors_ok fact n l ltac:(lia) E F).
  Qed.

  (** [unitary_divisors(1)] lists 1 twice. *)
  Theorem C19_unitary_divisors_1_refuted : unitary_divisors fact 1 None = Ret [1; 1].
  Proof.
    unfold unitary_divisors, get_factorization. cbn [Z.abs].
    destruct (small_fact 1 ltac:(lia)) as (l & E & F). rewrite E.
    replace l with (@nil (Z * Z)); [reflexivity|].
    apply (factorization_unique 1); [|exact F]. split; [constructor|]. split; [intros p e []|reflexivity].
  Qed.
End C19.

(** With a given prime factorization there is no bound on [n]. *)
Theorem C19_divisors_factorization : forall fact n m l, factorization m l -> m <> 1 ->
  exists r, divisors fact n (Some l) = Ret r /\
    StronglySorted Z.lt r /\ forall d, In d r <-> 0 < d /\ (d | m).
Proof. exact divisors_fac_ok. Qed.

(** For any size, through the result of [factor]. *)
Theorem C19_divisors_any : forall rnd fuel n l, factor_default rnd fuel (Z.abs n) = Ret l -> factorization (Z.abs n) l ->
  exists r, divisors (factor_default rnd fuel) (Some n) None = Ret r /\
    StronglySorted Z.lt r /\ forall d, In d r <-> 0 < d /\ (d | n).
Proof. intros rnd fuel n l. exact (divisors_ok (factor_default rnd fuel) n l). Qed.

Example C19_ex : forall rnd, divisors (factor_default rnd 1) (Some (-60)) None = Ret [1; 2; 3; 4; 5; 6; 10; 12; 15; 20; 30; 60] /\
  unitary_divisors (factor_default rnd 1) 60 None = Ret [1; 3; 4; 5; 12; 15; 20; 60] /\
  divisor_pairs (factor_default rnd 1) (Some 36) None = Ret [(1, 36); (2, 18); (3, 12); (4, 9); (6, 6)].
Proof. intros rnd. vm_compute. auto. Qed.

Print Assumptions C18_factor_sound.
Print Assumptions C18_factor_small.
Print Assumptions C18_factor_terminates.
Print Assumptions C18_factor_refuted.
Print Assumptions C19_divisors.
Print Assumptions C19_divisor_pairs.
Print Assumptions C19_unitary_divisors.
