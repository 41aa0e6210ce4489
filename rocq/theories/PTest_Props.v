(** * C91: the compositeness tests reject an odd composite number for at least half of the bases *)
From Coq Require Import ZArith List Lia Znumtheory Bool.
From Verif Require Import Base Py NT Lists2 Arith_Spec NT_Cong NT_QR Factor_Spec Sqrt_Model Primality_Model Primality_Proofs PTest_Spec PTest_Model PTest_Proofs PTest_Proofs2.
Import ListNotations.
Open Scope Z_scope.

(** miller_rabin decides whether n is a strong probable prime to the base a. *)
Theorem C91_miller_rabin : forall n a, 2 <= n -> exists b, miller_rabin n a = Ret b /\ (b = true <-> strong_probable_prime n a).
Proof. exact miller_rabin_spec. Qed.
Print Assumptions C91_miller_rabin.

(** The bases for which an odd composite n is accepted are at most half of the numbers coprime to n... *)
Theorem C91_miller_rabin_half : forall n L, 1 < n -> Z.odd n = true -> ~ prime n ->
  NoDup L -> (forall a, In a L -> 0 <= a < n /\ miller_rabin n a = Ret true) -> 2 * Z.of_nat (length L) <= totient n.
Proof.
  intros n L Hn On NP ND HL. apply (strong_half n L Hn On NP ND). intros a Ha. destruct (HL a Ha) as (B & E). split; [exact B|].
  destruct (miller_rabin_spec n a ltac:(lia)) as (b & Eb & H). apply H. congruence.
Qed.
Print Assumptions C91_miller_rabin_half.

(** ... as the documentation of solovay_strassen says. *)
Theorem C91_solovay_strassen_half : forall n L, 1 < n -> Z.odd n = true -> ~ prime n ->
  NoDup L -> (forall a, In a L -> 0 <= a < n /\ solovay_strassen n a = Ret true) -> 2 * Z.of_nat (length L) <= totient n.
Proof. exact euler_half. Qed.
Print Assumptions C91_solovay_strassen_half.

Lemma with_one n (P : Z -> Prop) L : 1 < n -> P 1 -> NoDup L -> (forall a, In a L -> 2 <= a <= n - 2 /\ P a) ->
  NoDup (1 :: L) /\ forall a, In a (1 :: L) -> 0 <= a < n /\ P a.
Proof.
  intros Hn P1 ND HL. split; [constructor; [|exact ND]; intros Q; apply HL in Q; lia|]. intros a [<-|Ha]; [split; [lia|exact P1]|]. destruct (HL a Ha) as (B & E). split; [lia|exact E].
Qed.

(** Of the n - 3 bases 2, ..., n - 2 that randint(2, n - 2) may draw, fewer than half accept an odd composite n. *)
Theorem C91_miller_rabin_draw : forall n L, 1 < n -> Z.odd n = true -> ~ prime n ->
  NoDup L -> (forall a, In a L -> 2 <= a <= n - 2 /\ miller_rabin n a = Ret true) -> 2 * Z.of_nat (length L) < n - 3.
Proof.
  intros n L Hn On NP ND HL.
  assert (P1 : miller_rabin n 1 = Ret true).
  { destruct (miller_rabin_spec n 1 ltac:(lia)) as (b & Eb & H). rewrite Eb. f_equal. apply H. destruct (split_exists n Hn) as (s & t & Hs & Ot & Em). exists s, t. split; [exact Hs|]. split; [exact Ot|]. split; [exact Em|]. left.
    rewrite Z.pow_1_l by (pose proof (t_pos n s t Hn Hs Em); lia). rewrite Z.sub_diag. apply Z.divide_0_r. }
  destruct (with_one n (fun a => miller_rabin n a = Ret true) L Hn P1 ND HL) as (N1 & H1).
  pose proof (C91_miller_rabin_half n _ Hn On NP N1 H1) as B. pose proof (totient_composite n Hn On NP). cbn [length] in B. lia.
Qed.
Print Assumptions C91_miller_rabin_draw.

Theorem C91_solovay_strassen_draw : forall n L, 1 < n -> Z.odd n = true -> ~ prime n ->
  NoDup L -> (forall a, In a L -> 2 <= a <= n - 2 /\ solovay_strassen n a = Ret true) -> 2 * Z.of_nat (length L) < n - 3.
Proof.
  intros n L Hn On NP ND HL.
  assert (P1 : solovay_strassen n 1 = Ret true).
  { destruct (Tab_Proofs.fac_exists n ltac:(lia)) as (l & F). destruct (odd_prime_list n l On ltac:(lia) F) as (Ho & Ez). destruct (eliar_ok n _ Hn On Ho Ez 1) as (b & Eb & H). rewrite Eb. f_equal. apply H. unfold eliar. rewrite (jac_1 _ Ho).
    split; [lia|]. rewrite Z.pow_1_l by apply (half_exp n Hn On). reflexivity. }
  destruct (with_one n (fun a => solovay_strassen n a = Ret true) L Hn P1 ND HL) as (N1 & H1).
  pose proof (C91_solovay_strassen_half n _ Hn On NP N1 H1) as B. pose proof (totient_composite n Hn On NP). cbn [length] in B. lia.
Qed.
Print Assumptions C91_solovay_strassen_draw.

(** For every odd composite n except 9 the accepting bases are at most a quarter of the numbers coprime to n (Rabin, Monier)... *)
Theorem C91_miller_rabin_quarter : forall n L, 1 < n -> Z.odd n = true -> ~ prime n -> n <> 9 ->
  NoDup L -> (forall a, In a L -> 0 <= a < n /\ miller_rabin n a = Ret true) -> 4 * Z.of_nat (length L) <= totient n.
Proof.
  intros n L Hn On NP N9 ND HL. apply (strong_quarter n L Hn On NP N9 ND). intros a Ha. destruct (HL a Ha) as (B & E). split; [exact B|].
  destruct (miller_rabin_spec n a ltac:(lia)) as (b & Eb & H). apply H. congruence.
Qed.
Print Assumptions C91_miller_rabin_quarter.

(** ... and 9 is an exception: it has 2 accepting bases and 6 units. *)
Theorem C91_miller_rabin_quarter_refuted : ~ prime 9 /\ totient 9 = 6 /\ forall a, 0 <= a < 9 -> (miller_rabin 9 a = Ret true <-> a = 1 \/ a = 8).
Proof.
  split; [intros P; destruct (prime_divisors_cases 9 3 P) as [E|E]; [exists 3; reflexivity|lia|lia|lia]|]. split; [reflexivity|].
  intros a Ha. assert (C : a = 0 \/ a = 1 \/ a = 2 \/ a = 3 \/ a = 4 \/ a = 5 \/ a = 6 \/ a = 7 \/ a = 8) by lia.
  destruct C as [->|[->|[->|[->|[->|[->|[->|[->| ->]]]]]]]]; vm_compute; split; intros H; try discriminate; auto; destruct H; discriminate.
Qed.
Print Assumptions C91_miller_rabin_quarter_refuted.

(** Of the n - 3 bases that randint(2, n - 2) may draw, fewer than a quarter accept an odd composite n, 9 included. *)
Theorem C91_miller_rabin_draw_quarter : forall n L, 1 < n -> Z.odd n = true -> ~ prime n ->
  NoDup L -> (forall a, In a L -> 2 <= a <= n - 2 /\ miller_rabin n a = Ret true) -> 4 * Z.of_nat (length L) < n - 3.
Proof.
  intros n L Hn On NP ND HL.
  destruct (Z.eq_dec n 9) as [->|N9].
  { destruct L as [|a L]; [cbn; lia|]. destruct (HL a (or_introl eq_refl)) as (B & E). destruct C91_miller_rabin_quarter_refuted as (_ & _ & Q). apply Q in E; lia. }
  assert (P1 : miller_rabin n 1 = Ret true).
  { destruct (miller_rabin_spec n 1 ltac:(lia)) as (b & Eb & H). rewrite Eb. f_equal. apply H. destruct (split_exists n Hn) as (s & t & Hs & Ot & Em). exists s, t. split; [exact Hs|]. split; [exact Ot|]. split; [exact Em|]. left.
    rewrite Z.pow_1_l by (pose proof (t_pos n s t Hn Hs Em); lia). rewrite Z.sub_diag. apply Z.divide_0_r. }
  destruct (with_one n (fun a => miller_rabin n a = Ret true) L Hn P1 ND HL) as (N1 & H1).
  pose proof (C91_miller_rabin_quarter n _ Hn On NP N9 N1 H1) as B. pose proof (totient_composite n Hn On NP). cbn [length] in B. lia.
Qed.
Print Assumptions C91_miller_rabin_draw_quarter.

(** Repetition: of the (n - 3)^k sequences of k draws, at most one in 4^k accepts an odd composite n every time. *)
Fixpoint sequences (S : list Z) (k : nat) : list (list Z) :=
  match k with O => [[]] | Datatypes.S k => flat_map (fun a => map (cons a) (sequences S k)) S end.
Lemma sequences_length S k : Z.of_nat (length (sequences S k)) = Z.of_nat (length S) ^ Z.of_nat k.
Proof.
  induction k as [|k IH]; [reflexivity|]. rewrite Nat2Z.inj_succ, Z.pow_succ_r, <- IH by lia. cbn [sequences]. generalize (sequences S k) as Q. intros Q. clear. induction S as [|a S IH]; [reflexivity|]. cbn [flat_map length]. rewrite app_length, map_length, Nat2Z.inj_add, IH. lia.
Qed.
Lemma sequences_In S : forall k l, length l = k -> (forall a, In a l -> In a S) -> In l (sequences S k).
Proof.
  induction k as [|k IH]; intros l E H; [destruct l; [left; reflexivity|discriminate]|]. destruct l as [|a l]; [discriminate|]. cbn [sequences]. apply in_flat_map. exists a. split; [apply H; left; reflexivity|]. apply in_map, IH; [injection E as E; exact E|]. intros b Hb. apply H. right. exact Hb.
Qed.
Theorem C91_miller_rabin_rounds : forall n k R, 1 < n -> Z.odd n = true -> ~ prime n ->
  NoDup R -> (forall l, In l R -> length l = k /\ forall a, In a l -> 2 <= a <= n - 2 /\ miller_rabin n a = Ret true) ->
  4 ^ Z.of_nat k * Z.of_nat (length R) <= (n - 3) ^ Z.of_nat k.
Proof.
  intros n k R Hn On NP ND HR. set (S := filter (fun a => match miller_rabin n a with Ret b => b | _ => false end) (zrange 2 (n - 1))).
  assert (HS : forall a, In a S <-> 2 <= a <= n - 2 /\ miller_rabin n a = Ret true).
  { intros a. unfold S. rewrite filter_In, zrange_In. destruct (miller_rabin n a) as [[|]| |]; split; intros (H1 & H2); split; congruence || lia. }
  assert (NS : NoDup S) by (apply NoDup_filter, zrange_NoDup).
  pose proof (C91_miller_rabin_draw_quarter n S Hn On NP NS ltac:(intros a Ha; apply HS, Ha)) as B.
  assert (L : Z.of_nat (length R) <= Z.of_nat (length S) ^ Z.of_nat k).
  { rewrite <- sequences_length. apply Nat2Z.inj_le. apply NoDup_incl_length; [exact ND|]. intros l Hl. destruct (HR l Hl) as (E & H). apply sequences_In; [exact E|]. intros a Ha. apply HS, H, Ha. }
  transitivity (4 ^ Z.of_nat k * Z.of_nat (length S) ^ Z.of_nat k); [apply Z.mul_le_mono_nonneg_l; [apply Z.pow_nonneg; lia|exact L]|]. rewrite <- Z.pow_mul_l. apply Z.pow_le_mono_l. lia.
Qed.
Print Assumptions C91_miller_rabin_rounds.

(** ** The deterministic test.  [lg n] stands for int(2*log(n)**2), computed in floating point: any function. *)
Lemma allM_spec {A} (f : A -> outcome bool) (P : A -> Prop) xs : (forall x, In x xs -> exists b, f x = Ret b /\ (b = true <-> P x)) ->
  exists b, allM f xs = Ret b /\ (b = true <-> forall x, In x xs -> P x).
Proof.
  induction xs as [|x xs IH]; intros H; [exists true; split; [reflexivity|]; split; [intros _ x []|reflexivity]|]. cbn [allM].
  destruct (H x (or_introl eq_refl)) as (b & -> & Hb). cbn [bind]. destruct b.
  - destruct IH as (c & E & Hc); [intros y Hy; apply H; right; exact Hy|]. exists c. split; [exact E|]. rewrite Hc. split; [intros K y [<-|Hy]; [apply Hb; reflexivity|apply K, Hy]|intros K y Hy; apply K; right; exact Hy].
  - exists false. split; [reflexivity|]. split; [discriminate|]. intros K. apply Hb, K. left. reflexivity.
Qed.

(** It tests the bases up to min(lg n, n - 1). *)
Theorem C91_deterministic : forall lg n, exists b, miller_rabin_deterministic lg n = Ret b /\
  (b = true <-> 2 <= n /\ forall a, 2 <= a <= lg n -> a <= n - 1 -> strong_probable_prime n a).
Proof.
  intros lg n. unfold miller_rabin_deterministic. destruct (Z.ltb_spec n 2); [exists false; split; [reflexivity|]; split; [discriminate|lia]|].
  destruct (allM_spec (miller_rabin n) (strong_probable_prime n) (zrange 2 (Z.min (lg n) (n - 1) + 1))) as (b & E & Hb); [intros a _; apply miller_rabin_spec; lia|].
  exists b. split; [exact E|]. rewrite Hb. split; [intros K; split; [lia|]; intros a H1 H2; apply K, zrange_In; lia|]. intros (_ & K) a Ha. apply zrange_In in Ha. apply K; lia.
Qed.
Print Assumptions C91_deterministic.

(** It accepts every prime. *)
Theorem C91_deterministic_prime : forall lg n, prime n -> miller_rabin_deterministic lg n = Ret true.
Proof.
  intros lg n P. pose proof (prime_ge2 n P). unfold miller_rabin_deterministic. destruct (Z.ltb_spec n 2); [lia|]. apply allM_all. intros a Ha. apply zrange_In in Ha. apply miller_rabin_prime; [exact P|lia|lia].
Qed.
Print Assumptions C91_deterministic_prime.

(** It rejects n < 2, and every composite number that has a witness within the bound: this is what the extended
    Riemann hypothesis is needed for. *)
Theorem C91_deterministic_witness : forall lg n, ~ prime n ->
  (2 <= n -> exists a, 2 <= a <= lg n /\ a <= n - 1 /\ ~ strong_probable_prime n a) -> miller_rabin_deterministic lg n = Ret false.
Proof.
  intros lg n NP W. destruct (C91_deterministic lg n) as (b & E & Hb). rewrite E. f_equal. destruct b; [|reflexivity]. exfalso. destruct (proj1 Hb eq_refl) as (H2 & K). destruct (W H2) as (a & H1 & H3 & Na). apply Na, K; assumption.
Qed.
Print Assumptions C91_deterministic_witness.

(** A multiple of a prime divisor of n is never accepted. *)
Lemma divisor_witness n p : 1 < n -> prime p -> (p | n) -> ~ strong_probable_prime n p.
Proof.
  intros Hn P D (s & t & Hs & Ot & Em & H). pose proof (prime_ge2 p P). pose proof (t_pos n s t Hn Hs Em) as Ht.
  assert (Dp : forall k, 0 < k -> (p | p ^ k)) by (intros k Hk; exists (p ^ (k - 1)); replace k with (Z.succ (k - 1)) at 1 by lia; rewrite Z.pow_succ_r by lia; ring).
  assert (N1 : forall k, 0 < k -> ~ (n | p ^ k - 1) /\ ~ (n | p ^ k + 1)).
  { intros k Hk. split; intros Q; apply (Z.divide_trans p) in Q; try exact D; assert (D1 : (p | 1)).
    - replace 1 with (p ^ k - (p ^ k - 1)) by lia. apply Z.divide_sub_r; [apply Dp, Hk|exact Q].
    - apply Z.divide_pos_le in D1; lia.
    - replace 1 with (p ^ k + 1 - p ^ k) by lia. apply Z.divide_sub_r; [exact Q|apply Dp, Hk].
    - apply Z.divide_pos_le in D1; lia. }
  destruct H as [H|[H|(i & Hi & H)]]; [apply (proj1 (N1 t Ht)), H|apply (proj2 (N1 t Ht)), H|]. apply (proj2 (N1 (2 ^ i * t) ltac:(pose proof (Z.pow_pos_nonneg 2 i); nia))), H.
Qed.

(** Without any hypothesis the answer is right as long as the bound is at least the square root of n. *)
Theorem C91_deterministic_small : forall lg n, n <= lg n * lg n -> 0 <= lg n ->
  exists b, miller_rabin_deterministic lg n = Ret b /\ (b = true <-> prime n).
Proof.
  intros lg n HL H0. destruct (prime_dec n) as [P|NP]; [exists true; split; [apply C91_deterministic_prime, P|tauto]|]. exists false. split; [|split; [discriminate|contradiction]].
  apply C91_deterministic_witness; [exact NP|]. intros H2. destruct (least_prime_divisor n H2) as (p & P & D & L). pose proof (prime_ge2 p P).
  exists p. destruct D as (m & E). assert (m <> 1) by (intros ->; apply NP; rewrite E, Z.mul_1_l; exact P). assert (Hm : 2 <= m) by nia.
  assert (Lm : p <= m). { destruct (prime_divisor_exists m Hm) as (q & Pq & Dq). assert (p <= q) by (apply L; [exact Pq|apply (Z.divide_trans _ m); [exact Dq|exists p; lia]]). apply Z.divide_pos_le in Dq; lia. }
  split; [nia|]. split; [nia|]. apply divisor_witness; [lia|exact P|exists m; exact E].
Qed.
Print Assumptions C91_deterministic_small.

(** ** Examples *)
Example C91_hyps : 1 < 561 /\ Z.odd 561 = true /\ ~ prime 561.
Proof. split; [lia|]. split; [reflexivity|]. intros P. destruct (prime_divisors_cases 561 3 P) as [E|E]; [exists 187; reflexivity|lia|lia|lia]. Qed.
Example C91_liars : miller_rabin 561 50 = Ret true /\ miller_rabin 561 2 = Ret false /\ solovay_strassen 561 2 = Ret true.
Proof. vm_compute. auto. Qed.
Example C91_deterministic_ex : miller_rabin_deterministic (fun _ => 30) 899 = Ret false /\ miller_rabin_deterministic (fun _ => 92) 883 = Ret true.
Proof. vm_compute. auto. Qed.
