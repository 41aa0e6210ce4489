(** * inverse_phi: the characterisation of RuntimeError *)
From Coq Require Import ZArith List Lia Bool Znumtheory Sorted Permutation.
From Verif Require Import Base Py Dict Lists Lists2 NT NT_Prim NT_Prim2 NT_Cong Arith_Spec Factor_Spec Factor_Model Arith_Model Primality_Model Primes_Props Div_Proofs Div_Proofs2 Find_Proofs8 Inv_Model Inv_Proofs Inv_Proofs2 Inv_Proofs3.
Import ListNotations.
Open Scope Z_scope.

Lemma primes_loop2 n : 1 <= n -> forall ps Q d, StronglySorted Z.gt ps -> (forall p, In p ps -> prime p) -> (forall q p, In q Q -> In p ps -> p < q) -> (forall r, prime r -> (r - 1 | n) -> In r ps \/ In r Q) ->
  cache_inv n (fun x => forall q, prime q -> (q | x) -> In q Q) d -> full d -> keys_are n (fun r j => In r Q) d -> (forall x, 2 <= x -> (forall q, prime q -> (q | x) -> In q Q) -> (totient x | n) -> settled x) ->
  let r := foldM (fun d p => run (cache_power n p) (bits (n + 2)) (p - 1, p, d)) ps d in
  (r = Raise RuntimeError /\ unsettled_below n) \/
  exists d', r = Ret d' /\ forall x, 2 <= x -> (forall q, prime q -> (q | x) -> In q ps \/ In q Q) -> (totient x | n) -> settled x.
Proof.
  intros Hn. cbv zeta. induction ps as [|p ps IH]; intros Q d Srt Pr Ab All Inv F KI St.
  - right. exists d. split; [reflexivity|]. intros x Hx B D. apply St; [exact Hx| |exact D]. intros q Pq Dq. destruct (B q Pq Dq) as [[]|H]; exact H.
  - apply StronglySorted_inv in Srt as (Srt & Hd). rewrite Forall_forall in Hd. cbn [foldM].
    destruct (prime2 n p Q d Hn (Pr p (or_introl eq_refl))) as [(-> & Bad)|(d1 & -> & Inv1 & F1 & KI1 & St1)]; auto.
    + intros q Hq. apply Ab; [exact Hq|left; reflexivity].
    + intros r Prr Dr Lt. destruct (All r Prr Dr) as [[<-|H]|H]; [lia|specialize (Hd r H); lia|exact H].
    + cbn [bind]. destruct (IH (p :: Q) d1 Srt) as [(E & Bad)|(d' & E & St')]; auto.
      * intros q Hq. apply Pr. right. exact Hq.
      * intros q r [<-|Hq] Hr; [specialize (Hd r Hr); lia|]. apply Ab; [exact Hq|right; exact Hr].
      * intros r Prr Dr. destruct (All r Prr Dr) as [[<-|H]|H]; [right; left; reflexivity|left; exact H|right; right; exact H].
      * right. exists d'. split; [exact E|]. intros x Hx B D. apply St'; [exact Hx| |exact D]. intros q Pq Dq. destruct (B q Pq Dq) as [[<-|H]|H]; [right; left; reflexivity|left; exact H|right; right; exact H].
Qed.

Lemma sorted_succ l : StronglySorted Z.lt l -> StronglySorted Z.lt (map (fun d => d + 1) l).
Proof. intros S. induction S as [|x l S IH H]; constructor; [exact IH|]. rewrite Forall_forall in *. intros y Hy. apply in_map_iff in Hy as (z & <- & Hz). specialize (H z Hz). lia. Qed.
Lemma sorted_filter (f : Z -> bool) l : StronglySorted Z.lt l -> StronglySorted Z.lt (filter f l).
Proof. intros S. induction S as [|x l S IH H]; [constructor|]. cbn [filter]. destruct (f x); [|exact IH]. constructor; [exact IH|]. rewrite Forall_forall in *. intros y Hy. apply filter_In in Hy. apply H, Hy. Qed.
Lemma sorted_snoc l x : StronglySorted Z.gt l -> (forall y, In y l -> y > x) -> StronglySorted Z.gt (l ++ [x]).
Proof.
  intros S. induction S as [|y l S IH H]; intros A; cbn [app]; [repeat constructor|]. constructor; [apply IH; intros z Hz; apply A; right; exact Hz|].
  apply Forall_app. split; [exact H|]. constructor; [apply A; left; reflexivity|constructor].
Qed.
Lemma sorted_rev l : StronglySorted Z.lt l -> StronglySorted Z.gt (rev l).
Proof. intros S. induction S as [|x l S IH H]; [constructor|]. cbn [rev]. apply sorted_snoc; [exact IH|]. intros y Hy. apply in_rev in Hy. rewrite Forall_forall in H. specialize (H y Hy). lia. Qed.

Lemma divide_pred q x : prime q -> 2 <= x -> (q | x) -> (q - 1 | totient x).
Proof.
  intros Pq Hx D. destruct (strip_exists q x Pq ltac:(lia)) as (k & m & Hk & Em & Nm & Hm). assert (k <> 0). { intros ->. apply Nm. rewrite Z.pow_0_r, Z.mul_1_l in Em. rewrite <- Em. exact D. }
  rewrite Em, totient_strip by (assumption || lia). exists (q ^ (k - 1) * totient m). ring.
Qed.

Lemma raises_iff fact n l0 : 1 <= n -> fact n = Ret l0 -> factorization n l0 -> (inverse_phi fact n = Raise RuntimeError <-> unsettled_below n).
Proof.
  intros Hn Ef F. unfold inverse_phi. destruct (divisors_ok fact n l0) as (ds & -> & Sd & Id); [rewrite Z.abs_eq by lia; exact Ef|rewrite Z.abs_eq by lia; exact F|]. cbn [bind].
  destruct (list_prime_oracle (map (fun d => d + 1) ds)) as (o & Ho). rewrite (filterM_ret _ o) by (intros x Hx; apply Ho, Hx). cbn [bind]. set (ps := filter o (map (fun d => d + 1) ds)).
  assert (Ip : forall q, In q ps <-> prime q /\ (q - 1 | n)).
  { intros q. unfold ps. rewrite filter_In. split.
    - intros (I & Eo). apply (proj2 (Ho q I)) in Eo. split; [exact Eo|]. apply in_map_iff in I as (z & <- & Hz). apply Id in Hz. replace (z + 1 - 1) with z by lia. apply Hz.
    - intros (Pq & D). pose proof (prime_ge_2 q Pq). assert (I : In q (map (fun d => d + 1) ds)) by (apply in_map_iff; exists (q - 1); split; [lia|apply Id; split; [lia|exact D]]). split; [exact I|]. apply (proj2 (Ho q I)), Pq. }
  assert (Srt : StronglySorted Z.gt (rev ps)) by (apply sorted_rev, sorted_filter, sorted_succ, Sd).
  destruct (primes_loop2 n Hn (rev ps) [] [] Srt) as [(-> & Bad)|(d & -> & St)].
  - intros p Hp. apply in_rev in Hp. apply Ip, Hp.
  - intros q p [].
  - intros r Pr Dr. left. apply in_rev. rewrite rev_involutive. apply Ip. auto.
  - split; [split; [constructor|intros k []]|]. intros m. split; [constructor|]. intros x. split; [intros []|]. intros (Hx & B & _). destruct (prime_divisor_exists x Hx) as (q & Pq & D). destruct (B q Pq D).
  - intros k [].
  - intros k. split; [intros []|]. intros (_ & r & j & _ & _ & _ & []).
  - intros x Hx B. destruct (prime_divisor_exists x Hx) as (q & Pq & D). destruct (B q Pq D).
  - split; [intros _; exact Bad|reflexivity].
  - cbn [bind]. split; [discriminate|]. intros (x & Hx & D & N). exfalso. apply N, St; [exact Hx| |exact D]. intros q Pq Dq. left. apply in_rev. rewrite rev_involutive. apply Ip. split; [exact Pq|]. eapply Z.divide_trans; [apply (divide_pred q x Pq Hx Dq)|exact D].
Qed.

(** Every multiple of 8 has an unsettled number below it: 15. *)
Lemma unsettled_eight n : (8 | n) -> unsettled_below n.
Proof.
  intros D. exists 15. split; [lia|]. split; [exact D|]. intros (r & j & Pr & Hj & E & C). change (totient 15) with 8 in E. rewrite totient_pow in E by assumption. pose proof (prime_ge_2 r Pr) as Hr.
  assert (r = 2) as ->.
  { destruct (Z.eq_dec j 1) as [-> |N].
    - change (1 - 1) with 0 in E. rewrite Z.pow_0_r in E. assert (r = 9) as -> by lia. exfalso. destruct (Znumtheory.prime_divisors 9 Pr 3) as [|[|[|]]]; [exists 3; reflexivity|lia..].
    - apply (prime_pow_divide r 2 3 Pr prime_2 ltac:(lia)). change (2 ^ 3) with 8. rewrite <- E. apply Z.divide_mul_l. replace (j - 1) with (1 + (j - 2)) by lia. rewrite Z.pow_add_r, Z.pow_1_r by lia. apply Z.divide_factor_l. }
  destruct C as [D2|(q & Pq & _ & Lt)]; [|pose proof (prime_ge_2 q Pq); lia].
  assert (X : (2 | 15)). { eapply Z.divide_trans; [|exact D2]. replace j with (1 + (j - 1)) by lia. rewrite Z.pow_add_r, Z.pow_1_r by lia. apply Z.divide_factor_l. } destruct X as (c & Ec). lia.
Qed.

(** No number has an odd totient other than 1. *)
Lemma odd_totient y : 1 <= y -> totient y mod 2 = 1 -> totient y = 1.
Proof.
  intros Hy O. destruct (Z.eq_dec (totient y) 1) as [|N]; [assumption|]. exfalso. pose proof (totient_pos y ltac:(lia)). apply (no_odd_preimage (totient y) y); auto. destruct (Z.eq_dec (totient y) 2) as [E|]; [rewrite E in O; discriminate|lia].
Qed.

Lemma settled_four n x : ~ (4 | n) -> 2 <= x -> (totient x | n) -> settled x.
Proof.
  intros N4 Hx D.
  assert (P : forall p, prime p -> (p | x) -> exists k y, 1 <= k /\ x = p ^ k * y /\ ~ (p | y) /\ 0 < y).
  { intros p Pp Dp. destruct (strip_exists p x Pp ltac:(lia)) as (k & y & Hk & Ex & Ny & Hy). exists k, y. split; [|auto]. destruct (Z.eq_dec k 0) as [-> |]; [|lia]. exfalso. apply Ny. rewrite Z.pow_0_r, Z.mul_1_l in Ex. subst. exact Dp. }
  assert (One : forall p k y, prime p -> 1 <= k -> x = p ^ k * y -> ~ (p | y) -> 0 < y -> totient y = 1 -> settled x).
  { intros p k y Pp Hk Ex Ny Hy E1. exists p, k. split; [exact Pp|]. split; [exact Hk|]. split; [rewrite Ex, totient_strip, totient_pow, E1 by assumption; ring|]. left. rewrite Ex. apply Z.divide_factor_l. }
  assert (Odd : forall p, prime p -> p <> 2 -> (p - 1) mod 2 = 0).
  { intros p Pp N2. pose proof (prime_ge_2 p Pp). destruct (Z.eq_dec ((p - 1) mod 2) 0) as [|O]; [assumption|]. exfalso. pose proof (Z.mod_pos_bound (p - 1) 2 ltac:(lia)). pose proof (Z.div_mod (p - 1) 2 ltac:(lia)).
    destruct (Znumtheory.prime_divisors p Pp 2) as [|[|[|]]]; [exists ((p - 1) / 2 + 1); lia|lia..]. }
  assert (Main : forall p, prime p -> p <> 2 -> (p | x) -> settled x).
  { intros p Pp N2 Dp. destruct (P p Pp Dp) as (k & y & Hk & Ex & Ny & Hy). apply (One p k y); auto. apply odd_totient; [lia|].
    destruct (Z.eq_dec (totient y mod 2) 1) as [|O]; [assumption|]. exfalso. apply N4. eapply Z.divide_trans; [|exact D]. rewrite Ex, totient_strip by assumption.
    pose proof (Z.mod_pos_bound (totient y) 2 ltac:(lia)). assert (O' : totient y mod 2 = 0) by lia. apply Z.mod_divide in O' as (c & Ec); [|lia]. pose proof (Odd p Pp N2) as O2. apply Z.mod_divide in O2 as (e & Ee); [|lia].
    rewrite Ec, Ee. exists (p ^ (k - 1) * e * c). ring. }
  destruct (prime_divisor_exists x Hx) as (q & Pq & Dq). destruct (Z.eq_dec q 2) as [-> |Nq]; [|exact (Main q Pq Nq Dq)].
  destruct (P 2 Pq Dq) as (k & y & Hk & Ex & Ny & Hy). destruct (Z.eq_dec y 1) as [-> |N1]; [apply (One 2 k 1); auto|].
  destruct (prime_divisor_exists y ltac:(lia)) as (p & Pp & Dp). apply (Main p Pp); [intros ->; contradiction|]. rewrite Ex. apply Z.divide_mul_r, Dp.
Qed.
