(** * Arithmetic functions: C23, C25 *)
From Coq Require Import ZArith List Bool Lia Znumtheory Sorted.
From Verif Require Import Base NT Primes_Spec Factor_Model Factor_Spec Factor_Proofs Div_Proofs Factor_Props
  Arith_Model Arith_Spec Arith_Proofs Arith_Proofs2.
Import ListNotations.
Open Scope Z_scope.

(** An argument denotes [n]: the integer itself, or its prime factorization.
    [fact] is the function [factor]; it is only used on the integer. *)
Definition denotes (fact : Z -> outcome (list (Z * Z))) (a : arg) (n : Z) : Prop :=
  (a = AInt n /\ (n = 1 \/ exists l, fact n = Ret l /\ factorization n l)) \/
  (exists l, a = AFac l /\ l <> [] /\ factorization n l).

(** For [1 <= n <= 10^12] the integer argument always qualifies. *)
Theorem C23_denotes_small : forall rnd fuel n, (1 <= fuel)%nat -> 1 <= n <= 10 ^ 12 ->
  denotes (factor_default rnd fuel) (AInt n) n.
Proof.
  intros rnd fuel n Hf Hn. left. split; [reflexivity|]. right. apply small_fact; [exact Hf|lia].
Qed.

(** The two shapes of [validate_input]'s result. *)
Lemma validate_ok fact a n : 1 <= n -> denotes fact a n ->
  (n = 1 /\ validate_input fact a = Ret [(1, 1)]) \/
  (exists l, validate_input fact a = Ret l /\ factorization n l /\ is_one l = false /\ l <> []).
Proof.
  intros Hn D.
  assert (One : forall l, factorization n l -> is_one l = false).
  { intros l F. destruct l as [|[p e] [|]]; try reflexivity. cbn.
    apply factorization_cons in F as (Hp & _). pose proof (prime_ge2 p Hp). destruct (Z.eqb_spec p 1); [lia|reflexivity]. }
  destruct D as [[-> [-> |(l & E & F)]]|(l & -> & Nl & F)].
  - left. auto.
  - destruct (Z.eq_dec n 1) as [->|N1]; [left; auto|right]. exists l. cbn.
    destruct (Z.eqb_spec n 1); [lia|]. destruct (Z.leb_spec n 0); [lia|]. split; [exact E|]. split; [exact F|].
    split; [apply One, F|]. intros ->. destruct F as (_ & _ & V). cbn in V. lia.
  - right. exists l. cbn. destruct l as [|[p e] l]; [congruence|].
    pose proof F as F'. apply factorization_cons in F' as (Hp & _). pose proof (prime_ge2 p Hp).
    destruct (Z.ltb_spec 0 p); [|lia]. split; [reflexivity|]. split; [exact F|]. split; [apply One, F|discriminate].
Qed.

Lemma fold_pair (f : Z -> Z -> Z) l a :
  fold_left (fun prod '(p, e) => prod * f p e) l a = a * zprod (map (fun pe => f (fst pe) (snd pe)) l).
Proof.
  revert a. induction l as [|[p e] l IH]; intros a; cbn [fold_left map fst snd]; [rewrite zprod_nil; ring|].
  rewrite IH, zprod_cons. ring.
Qed.

(** ** C23 *)
Theorem C23_euler_phi : forall fact a n, 1 <= n -> denotes fact a n ->
  euler_phi fact a = Ret (totient n).
Proof.
  intros fact a n Hn D. unfold euler_phi. destruct (validate_ok fact a n Hn D) as [[-> E]|(l & E & F & O & _)]; rewrite E; cbn [bind].
  - reflexivity.
  - rewrite O. f_equal. rewrite (totient_fac n l F). rewrite (fold_pair (fun p e => p ^ (e - 1) * (p - 1))). apply Z.mul_1_l.
Qed.

Theorem C23_divisor_tau : forall fact a n, 1 <= n -> denotes fact a n ->
  divisor_tau fact a = Ret (tau n).
Proof.
  intros fact a n Hn D. unfold divisor_tau. destruct (validate_ok fact a n Hn D) as [[-> E]|(l & E & F & O & _)]; rewrite E; cbn [bind].
  - reflexivity.
  - rewrite O. f_equal. rewrite (tau_fac n l F). rewrite (fold_pair (fun p e => e + 1)). apply Z.mul_1_l.
Qed.

Theorem C23_divisor_sigma : forall fact a n k, 0 <= k -> 1 <= n -> denotes fact a n ->
  divisor_sigma fact a k = Ret (sigma k n).
Proof.
  intros fact a n k Hk Hn D. unfold divisor_sigma. destruct (Z.ltb_spec k 0); [lia|].
  destruct (Z.eqb_spec k 0) as [->|].
  - rewrite (C23_divisor_tau fact a n Hn D). f_equal. unfold tau, sigma.
    induction (all_divisors n) as [|d l IH]; [reflexivity|]. cbn [map length]. rewrite zsum_cons, Z.pow_0_r, <- IH. lia.
  - destruct (validate_ok fact a n Hn D) as [[-> E]|(l & E & F & O & _)]; rewrite E; cbn [bind].
    + cbn [is_one Z.eqb Pos.eqb andb]. f_equal. unfold sigma. cbn [all_divisors]. change (all_divisors 1) with [1].
      cbn [map]. rewrite zsum_cons, zsum_nil, Z.pow_1_l by lia. reflexivity.
    + rewrite O. rewrite (sigma_fac k n l) by (try assumption; lia).
      rewrite (foldM_ret _ (fun prod pe => prod * (((fst pe ^ k) ^ (snd pe + 1) - 1) / (fst pe ^ k - 1)))).
      * rewrite fold_prod, Z.mul_1_l. reflexivity.
      * intros s [p e] Hin. cbn [fst snd]. pose proof F as (_ & A & _). destruct (A p e Hin) as [Hp He].
        pose proof (prime_ge2 p Hp). pose proof (pow_ge2 p k ltac:(lia) ltac:(lia)).
        unfold pydiv. destruct (Z.eqb_spec (p ^ k - 1) 0); [lia|]. reflexivity.
Qed.

Theorem C23_moebius_mu : forall fact a n, 1 <= n -> denotes fact a n ->
  exists m, moebius_mu fact a = Ret m /\ is_moebius n m.
Proof.
  intros fact a n Hn D. unfold moebius_mu. destruct (validate_ok fact a n Hn D) as [[-> E]|(l & E & F & O & Nl)]; rewrite E; cbn [bind].
  - exists 1. split; [reflexivity|]. right. split.
    + intros p Hp X. apply Z.divide_1_r in X. pose proof (prime_ge2 p Hp). nia.
    + exists []. split; [constructor|]. split; [|reflexivity]. intros p. split; [intros []|]. intros [Hp X].
      apply Z.divide_1_r in X. pose proof (prime_ge2 p Hp). lia.
  - rewrite O. unfold is_squarefree, validate_input. destruct l as [|[p e] l]; [congruence|].
    pose proof F as F'. apply factorization_cons in F' as (Hp & _). pose proof (prime_ge2 p Hp).
    destruct (Z.ltb_spec 0 p); [|lia]. cbn [bind]. eexists. split; [reflexivity|]. apply (moebius_fac n ((p, e) :: l) F).
Qed.

Theorem C23_moebius_unique : forall n m m', is_moebius n m -> is_moebius n m' -> m = m'.
Proof. exact is_moebius_unique. Qed.

Theorem C23_is_squarefree : forall fact a n, 1 <= n -> denotes fact a n ->
  exists b, is_squarefree fact a = Ret b /\ (b = true <-> forall p, prime p -> ~ (p * p | n)).
Proof.
  intros fact a n Hn D. unfold is_squarefree. destruct (validate_ok fact a n Hn D) as [[-> E]|(l & E & F & O & Nl)]; rewrite E; cbn [bind].
  - exists true. split; [reflexivity|]. split; [|reflexivity]. intros _ p Hp X. apply Z.divide_1_r in X. pose proof (prime_ge2 p Hp). nia.
  - eexists. split; [reflexivity|]. apply (squarefree_fac n l F).
Qed.

(** Arguments that are not positive integers are rejected. *)
Theorem C23_errors : forall fact n, n <= 0 ->
  euler_phi fact (AInt n) = Raise ValueError /\ divisor_tau fact (AInt n) = Raise ValueError /\
  moebius_mu fact (AInt n) = Raise ValueError /\ carmichael_lambda fact (AInt n) = Raise ValueError /\
  (forall k, 0 <= k -> divisor_sigma fact (AInt n) k = Raise ValueError).
Proof.
  intros fact n Hn.
  assert (V : validate_input fact (AInt n) = Raise ValueError).
  { cbn. destruct (Z.eqb_spec n 1); [lia|]. destruct (Z.leb_spec n 0); [reflexivity|lia]. }
  unfold euler_phi, divisor_tau, moebius_mu, divisor_sigma, divisor_tau, carmichael_lambda. rewrite V. cbn [bind].
  destruct (Z.eqb_spec n 1); [lia|]. destruct (Z.leb_spec n 0); [|lia].
  split; [reflexivity|]. split; [reflexivity|]. split; [reflexivity|]. split; [reflexivity|].
  intros k Hk. destruct (Z.ltb_spec k 0); [lia|]. destruct (k =? 0); reflexivity.
Qed.

Example C23_ex : forall rnd,
  euler_phi (factor_default rnd 1) (AInt 360) = Ret 96 /\
  divisor_sigma (factor_default rnd 1) (AInt 360) 1 = Ret 1170 /\
  divisor_tau (factor_default rnd 1) (AInt 360) = Ret 24 /\
  moebius_mu (factor_default rnd 1) (AInt 30) = Ret (-1) /\
  carmichael_lambda (factor_default rnd 1) (AInt 360) = Ret 12.
Proof. intros rnd. vm_compute. auto 10. Qed.

(** ** C25 *)
Theorem C25_factorial : forall n, 0 <= n -> factorial n = Ret (zprod (zrange 1 (n + 1))).
Proof. exact factorial_correct. Qed.

Theorem C25_factorial_error : forall n, n < 0 -> factorial n = Raise ValueError.
Proof. exact factorial_error. Qed.

Theorem C25_primorial : forall float_bound n, 1 <= n < 78498 ->
  exists l, first_primes n l /\ primorial float_bound n = Ret (zprod l).
Proof. exact primorial_correct. Qed.

Theorem C25_primorial_large : forall float_bound n l, 78498 <= n ->
  primes_upto (float_bound n) l -> n <= Z.of_nat (length l) ->
  exists l', first_primes n l' /\ primorial float_bound n = Ret (zprod l').
Proof. exact primorial_large. Qed.

Theorem C25_primorial_error : forall float_bound n, n <= 0 -> primorial float_bound n = Raise ValueError.
Proof. intros fb n H. unfold primorial. destruct (Z.leb_spec n 0); [reflexivity|lia]. Qed.

Example C25_ex : factorial 20 = Ret 2432902008176640000 /\ primorial (fun _ => 0) 5 = Ret 2310.
Proof. vm_compute. auto. Qed.

Print Assumptions C23_euler_phi.
Print Assumptions C23_divisor_sigma.
Print Assumptions C23_moebius_mu.
Print Assumptions C25_factorial.
Print Assumptions C25_primorial.
