(** * Properties C21, C22 and C75 *)
From Coq Require Import ZArith List Bool Lia Znumtheory.
From Verif Require Import Base Core_Model Core_Spec Core_Props NT NT_Cong Primality_Spec TrialDiv_Model Primes_Props QR_Spec Factor_Model Factor_Props Find_Model Find_Spec
  Find_Proofs Find_Proofs2 Find_Proofs3 Find_Proofs4 Find_Proofs5 Find_Proofs6 Find_Proofs7 Find_Proofs8.
Import ListNotations.
Open Scope Z_scope.

(** ** C21: what the factor-finding functions return *)
Theorem C21_fermat_divides : forall n, 0 <= n -> exists d, fermat n = Ret d /\ (d | n).
Proof. exact fermat_divides. Qed.

(** For odd n >= 5 with an exact square root: the greatest divisor below sqrt(n), or n when there is none but 1;
    the latter happens exactly for primes and squares of primes. *)
Theorem C21_fermat : forall n, Z.odd n = true -> 5 <= n -> (n < 2 ^ 52 \/ 2 ^ 60 < n) -> exists r, fermat n = Ret r /\
  ((1 < r /\ r * r < n /\ (r | n) /\ forall d, (d | n) -> 1 < d -> d * d < n -> d <= r) \/
   (r = n /\ forall d, (d | n) -> 1 < d -> ~ d * d < n)).
Proof. exact fermat_exact. Qed.

Theorem C21_fermat_prime : forall n, Z.odd n = true -> 5 <= n -> (n < 2 ^ 52 \/ 2 ^ 60 < n) ->
  (fermat n = Ret n <-> prime n \/ exists p, prime p /\ n = p * p).
Proof.
  intros n O Hn Hr. destruct (fermat_exact n O Hn Hr) as (r & E & H). split.
  - intros E'. assert (r = n) by congruence. subst r. destruct H as [(_ & H & _)|(_ & H)]; [nia|].
    destruct (prime_divisor_exists n ltac:(lia)) as (p & Pp & [c Hc]). pose proof (prime_ge2 p Pp) as P2. assert (Hcp : 0 < c) by nia.
    destruct (Z.eq_dec c 1) as [->|N1]; [left; rewrite Hc, Z.mul_1_l; exact Pp|]. right. exists p. split; [exact Pp|].
    assert (A : ~ p * p < n) by (apply H; [exists c; exact Hc|lia]). assert (B : ~ c * c < n) by (apply H; [exists p; lia|lia]).
    assert (c = p) by nia. subst c. exact Hc.
  - intros HP. rewrite E. f_equal. destruct H as [(H1 & H2 & H3 & _)|(H & _)]; [exfalso|exact H]. destruct HP as [Pn|(p & Pp & ->)].
    + destruct (Znumtheory.prime_divisors n Pn r H3) as [X|[X|[X|X]]]; nia.
    + assert (Dr : (r | p ^ 2)) by (rewrite Z.pow_2_r; exact H3). destruct (divides_prime_power p 2 r Pp ltac:(lia) ltac:(lia) Dr) as (j & Hj & Er).
      pose proof (prime_ge2 p Pp). assert (j = 0 \/ j = 1 \/ j = 2) as [-> |[-> | ->]] by lia; rewrite ?Z.pow_0_r, ?Z.pow_1_r, ?Z.pow_2_r in Er; nia.
Qed.

(** Between 2^52 and 2^60 the rounded square root can be one too large, and the search then skips the
    closest pair: the product of any twin primes of this size is returned as if it had no factor. *)
Theorem C21_fermat_refuted : forall p, 2 ^ 26 <= p < 2 ^ 30 -> prime p -> prime (p + 2) -> fermat (p * (p + 2)) = Ret (p * (p + 2)).
Proof.
  intros p Hp P1 P2. assert (Op : Z.odd p = true).
  { destruct (Z.odd p) eqn:O; [reflexivity|exfalso]. assert (D : (2 | p)) by (apply Z.mod_divide; [lia|rewrite Zmod_odd, O; reflexivity]). destruct (Znumtheory.prime_divisors p P1 2 D); lia. }
  assert (Eg : integer_sqrt (p * (p + 2)) = Ret (p + 1)).
  { replace (p * (p + 2)) with ((p + 1) * (p + 1) - 1) by lia. apply C04_integer_sqrt_refuted. lia. }
  destruct (fermat_gen (p * (p + 2)) (p + 1)) as (r & E & H); [rewrite Z.odd_mul, Z.odd_add, Op; reflexivity|nia|exact Eg|assert (Z.sqrt (p * (p + 2)) < p + 2); [apply Z.sqrt_lt_square; nia|lia]|].
  rewrite E. f_equal. destruct H as [(H1 & H2 & H3 & H4 & _)|(H & _)]; [exfalso|exact H].
  destruct (Zdivide_dec p r) as [D|D].
  - destruct D as [c Ec]. subst r. assert (Hc : 0 < c) by nia. assert (c = 1) by nia. subst c. rewrite Z.mul_1_l in H4. rewrite (Z.mul_comm p (p + 2)), Z.div_mul in H4 by lia. lia.
  - assert (X : (r | p + 2)) by (apply (Z.gauss _ p); [exact H3|apply Zgcd_1_rel_prime, rel_prime_sym, prime_rel_prime; assumption]). destruct (Znumtheory.prime_divisors (p + 2) P2 r X) as [Y|[Y|[Y|Y]]]; nia.
Qed.
Example C21_fermat_twins : let p := 67109321 in 2 ^ 26 <= p < 2 ^ 30 /\ prime p /\ prime (p + 2).
Proof.
  cbv zeta. split; [lia|]. split.
  - destruct (C20_trial_division 67109321 ltac:(lia)) as (r & E & (Pr & _)). assert (E' : trial_division 67109321 None = Ret 67109321) by (vm_compute; reflexivity). rewrite E' in E. inversion E; subst r. exact Pr.
  - destruct (C20_trial_division (67109321 + 2) ltac:(lia)) as (r & E & (Pr & _)). assert (E' : trial_division (67109321 + 2) None = Ret (67109321 + 2)) by (vm_compute; reflexivity). rewrite E' in E. inversion E; subst r. exact Pr.
Qed.

Theorem C21_fermat_edges : fermat 3 = Ret 1 /\ (forall n, n mod 2 = 0 -> fermat n = Ret 2) /\ (forall n, n < 0 -> n mod 2 = 1 -> fermat n = Raise ValueError).
Proof.
  split; [vm_compute; reflexivity|]. split; intros n; [intros E|intros L E]; unfold fermat; rewrite E; [reflexivity|]. cbn [Z.eqb]. unfold integer_sqrt. destruct (Z.ltb_spec n 0); [reflexivity|lia].
Qed.

(** lehman returns a divisor greater than 1, the least prime factor when that is at most the cube root of n. *)
Theorem C21_lehman : forall n, 2 <= n -> exists d, lehman n = Ret d /\ (d | n) /\ 1 < d /\
  (forall q, prime q -> (q | n) -> q ^ 3 <= n -> d <= q).
Proof. exact lehman_ok. Qed.

(** It does not decide primality: the search for a given multiplier stops at once when floor(sqrt(4kn)) already has
    the wanted residue and its square is below 4kn. *)
Theorem C21_lehman_refuted : lehman 71441 = Ret 71441 /\ 71441 = 199 * 359 /\ lehman 4 = Ret 4 /\ lehman 6 = Ret 6.
Proof. vm_compute. repeat split; reflexivity. Qed.

(** Pollard's p-1 method finds a factor whenever some prime p <> 13 dividing n has p-1 with all prime powers <= limit. *)
Theorem C21_pollard_p_minus_1 : forall n limit, 1 <= n -> exists g, pollard_p_minus_1 n limit = Ret g /\ (g | n) /\ 1 <= g /\
  forall p, prime p -> (p | n) -> p <> 13 -> (forall q e, prime q -> 1 <= e -> (q ^ e | p - 1) -> q ^ e <= limit) -> 1 < g.
Proof. exact pollard_p_minus_1_ok. Qed.

(** Pollard's rho terminates, with or without a bound, for all random choices; every result is a divisor > 1. *)
Theorem C21_pollard_rho : forall a u n iterations, 4 <= n -> exists d, pollard_rho a u n iterations = Ret d /\ (d | n) /\ 1 < d.
Proof. exact pollard_rho_ok. Qed.

Theorem C21_pollard_rho_small : forall a u n iterations, n < 4 -> pollard_rho a u n iterations = Raise ValueError.
Proof. intros a u n it H. unfold pollard_rho. destruct (Z.ltb_spec (n - 3) 1); [reflexivity|lia]. Qed.

Theorem C21_pollard_rho_brent : forall n c y, 4 <= n -> exists g, pollard_rho_brent c y n = Ret g /\ (g | n) /\ 1 < g.
Proof. exact C18_pollard_rho_brent. Qed.

Example C21_ex : fermat 1001 = Ret 13 /\ fermat 8051 = Ret 83 /\ fermat 49 = Ret 49 /\ lehman 1001 = Ret 7 /\ lehman 8051 = Ret 97 /\ pollard_p_minus_1 1001 6 = Ret 7.
Proof. vm_compute. repeat split; reflexivity. Qed.

Example C21_ex_rho : pollard_rho 1 2 8051 None = Ret 8051 /\ pollard_rho 1 2 8051 (Some 3) = Ret 8051.
Proof. vm_compute. repeat split; reflexivity. Qed.

(** ** C22: the elimination modulo 2 returns a basis of the kernel *)
Theorem C22_z2_gaussian_elimination : forall cols rows, (1 <= cols)%nat -> rows <> [] -> (forall row, In row rows -> length row = cols) ->
  exists vs, z2_gaussian_elimination rows = Ret vs /\ kernel_basis cols rows vs /\ (length rows <= length vs + cols)%nat.
Proof. exact z2_ok. Qed.

Example C22_ex : z2_gaussian_elimination [[1; 0; 1]; [0; 1; 1]; [1; 1; 0]; [2; 1; 1]] = Ret [[1; 1; 1; 0]; [0; 1; 0; 1]].
Proof. vm_compute. reflexivity. Qed.

Theorem C22_errors : z2_gaussian_elimination [] = Raise IndexError /\ forall rows, z2_gaussian_elimination ([] :: rows) = Raise ValueError.
Proof.
  split; [reflexivity|]. intros rows. unfold z2_gaussian_elimination. change (pyget ([] :: rows) 0) with (Ret (@nil Z)). cbv zeta. cbn [bind length]. change (Z.of_nat 0) with 0.
  rewrite (Py.mapM_ret (encode 0) (fun _ => 0)) by reflexivity. reflexivity.
Qed.

(** ** C75: smooth numbers and the continued fraction method *)
(** smooth_factor finds exponents exactly when there are some. *)
Theorem C75_smooth_factor : forall n base, factor_base base -> n <> 0 ->
  (exists es, smooth_factor n base = Ret es /\ exponent_vector base es /\ base_value base es = n) \/
  (smooth_factor n base = Raise ValueError /\ forall es, exponent_vector base es -> base_value base es <> n).
Proof. exact smooth_factor_ok. Qed.

Theorem C75_smooth_factor_edges : smooth_factor 1 [-1] = Raise ValueError /\ smooth_factor 1 [] = Raise IndexError /\ smooth_factor 0 [2; 3] = Diverge.
Proof.
  split; [reflexivity|]. split; [reflexivity|]. unfold smooth_factor. change (pyget [2; 3] 0) with (Ret 2). cbn -[run zrange].
  change (zrange 0 2) with [0; 1]. cbn -[run]. rewrite (run_never (strip_p 2) (fun s => fst s = 0)); [reflexivity| |reflexivity]. intros [m e] E. cbn in E. subst m. eexists. split; [reflexivity|reflexivity].
Qed.

Example C75_smooth_ex : smooth_factor (-360) [-1; 2; 3; 5] = Ret [1; 3; 2; 1] /\ smooth_factor 14 [-1; 2; 3; 5] = Raise ValueError /\ factor_base [-1; 2; 3].
Proof.
  split; [vm_compute; reflexivity|]. split; [vm_compute; reflexivity|]. exists [2; 3]. split; [right; reflexivity|]. split; [discriminate|]. split; [repeat constructor; cbn; intuition lia|]. intros p [<-|[<-|[]]]; [exact prime_2|exact prime_3].
Qed.

(** The pairs (i, A, Q) satisfy A^2 = (-1)^i Q modulo n; Q is small. *)
Theorem C75_aq_pairs : forall n m, 2 <= n -> (forall k, k * k <> n) -> exists l, cfrac_aq_pairs n m = Ret l /\ length l = m /\
  forall k, (k < m)%nat -> let '(i, A, Q) := nth k l (0, 0, 0) in i = Z.of_nat k + 1 /\ 0 <= A < n /\ (A * A) mod n = ((-1) ^ i * Q) mod n /\ Q <> 0 /\
    (n < 2 ^ 52 \/ 2 ^ 60 < n -> 0 < Q <= 2 * Z.sqrt n).
Proof.
  intros n m Hn Sq. destruct (aq_pairs_ok n m Hn Sq) as (l & E & L & H). exists l. split; [exact E|]. split; [exact L|]. intros k Hk. specialize (H k Hk). destruct (nth k l (0, 0, 0)) as [[i A] Q]. rewrite cg_iff in H. exact H.
Qed.

Example C75_aq_ex : cfrac_aq_pairs 13 6 = Ret [(1, 3, 4); (2, 4, 3); (3, 7, 3); (4, 11, 4); (5, 5, 1); (6, 2, 4)].
Proof. vm_compute. reflexivity. Qed.

(** Each kernel vector of relations a_j^2 = prod base^row_j (mod n) gives a congruence of squares. *)
Theorem C75_relation : forall n base M a_list v, n <> 0 -> length a_list = length M -> (forall row, In row M -> exponent_vector base row) ->
  (forall j, (j < length M)%nat -> (nth j a_list 0 * nth j a_list 0) mod n = base_value base (nth j M []) mod n) -> in_kernel (length base) M v ->
  exists x y, relation n (Z.of_nat (length base)) base M a_list v = Ret (x, y) /\ (x * x) mod n = (y * y) mod n.
Proof.
  intros n base M al v Hn Ha HM Hr Hv. destruct (relation_ok n base M al v Hn Ha HM) as (x & y & E & C); [intros j Hj; constructor; apply Hr, Hj|exact Hv|]. exists x, y. split; [exact E|]. apply cg_iff, C.
Qed.

(** The multiplier: the least of those that let in the most primes <= 31, 3 and 5 among them. *)
Theorem C75_multiplier : forall n, exists k, cfrac_multiplier n = Ret k /\ 1 <= k < 1000 /\ (0 <= legendre (k * n) 3 /\ 0 <= legendre (k * n) 5) /\
  let count j := length (filter (fun p => 0 <=? legendre (j * n) p) [3; 5; 7; 11; 13; 17; 19; 23; 29; 31]) in
  forall j, 1 <= j < 1000 -> 0 <= legendre (j * n) 3 -> 0 <= legendre (j * n) 5 -> (count j < count k)%nat \/ (count j = count k /\ k <= j).
Proof.
  intros n. destruct (cfrac_multiplier_ok n) as (k & E & Hk & A & H). exists k. split; [exact E|]. split; [exact Hk|]. split; [exact A|]. intros count j Hj H3 H5. destruct (H j Hj (conj H3 H5)) as [X|[X Y]]; unfold mcount in X; fold multiplier_primes in count; [left|right]; unfold count; lia.
Qed.

(** cfrac never fails: it finds a divisor greater than 1 (n itself only if n is prime), gives up (None), or keeps looking for relations. *)
Theorem C75_cfrac : forall B rounds n k kk, 2 <= n -> 2 <= B n -> 1 <= kk -> (k = Some kk \/ (k = None /\ cfrac_multiplier n = Ret kk)) -> (forall m, m * m <> kk * n) ->
  cfrac B rounds n k = Diverge \/ cfrac B rounds n k = Ret None \/ exists d, cfrac B rounds n k = Ret (Some d) /\ (d | n) /\ 1 < d /\ (d = n -> prime n).
Proof. exact cfrac_ok. Qed.

(** Squares without small factors are not handled: the multiplier is 1 and the first pair divides by zero. *)
Theorem C75_cfrac_square_refuted : forall B rounds m, 2 <= m -> 2 <= B (m * m) -> (forall p, prime p -> p <= B (m * m) -> ~ (p | m)) ->
  cfrac B rounds (m * m) None = Raise ZeroDivisionError.
Proof. exact cfrac_square. Qed.

Example C75_cfrac_ex : cfrac (fun _ => 20) 6 8051 None = Ret (Some 83) /\ cfrac_multiplier 8051 = Ret 29 /\ (forall m, m * m <> 29 * 8051).
Proof.
  split; [vm_compute; reflexivity|]. split; [vm_compute; reflexivity|]. intros m E. assert (m ^ 2 = 233479) by lia. assert (A : 483 < Z.abs m < 484); [|lia]. split; apply Z.square_lt_simpl_nonneg; lia.
Qed.

Print Assumptions C21_fermat.
Print Assumptions C21_lehman.
Print Assumptions C21_pollard_p_minus_1.
Print Assumptions C21_pollard_rho.
Print Assumptions C22_z2_gaussian_elimination.
Print Assumptions C75_smooth_factor.
Print Assumptions C75_aq_pairs.
Print Assumptions C75_cfrac.
