(** * jacobi_symbol computes the Jacobi symbol *)
From Coq Require Import ZArith List Bool Lia Znumtheory.
From Verif Require Import Base Py Lists NT NT_Cong Core_Model Factor_Spec Div_Proofs QR_Spec NT_QR.
Import ListNotations.
Open Scope Z_scope.

Lemma land1 m : Z.land m 1 = m mod 2. Proof. change 1 with (Z.ones 1) at 1. rewrite Z.land_ones by lia. reflexivity. Qed.
Lemma land3 m : Z.land m 3 = m mod 4. Proof. change 3 with (Z.ones 2). rewrite Z.land_ones by lia. reflexivity. Qed.
Lemma land7 m : Z.land m 7 = m mod 8. Proof. change 7 with (Z.ones 3). rewrite Z.land_ones by lia. reflexivity. Qed.
Lemma land1_odd m : (Z.land m 1 =? 0) = negb (Z.odd m).
Proof. rewrite land1, Zmod_odd. destruct (Z.odd m); reflexivity. Qed.

Lemma inner_ok m ps a t : odd_primes ps -> zprod ps = m -> 0 < a ->
  exists a' t', run (jacobi_inner m) (bits (Z.abs a)) (a, t) = Ret (a', t') /\ 0 < a' <= a /\ Z.odd a' = true /\ t' * jac a' ps = t * jac a ps.
Proof.
  intros H Em Ha. apply (run_rule (jacobi_inner m) (fun s => 0 < fst s <= a /\ snd s * jac (fst s) ps = t * jac a ps) fst (fun r => exists a' t', r = Ret (a', t') /\ 0 < a' <= a /\ Z.odd a' = true /\ t' * jac a' ps = t * jac a ps)).
  - intros (x, u) (Hx & E). cbn [fst snd] in *. unfold jacobi_inner. rewrite land1_odd, land7. destruct (Z.odd x) eqn:O; cbn [negb]; [exists x, u; auto|].
    rewrite <- Z.negb_even in O. apply negb_false_iff, Z.even_spec in O as (c & ->). rewrite Z.shiftr_div_pow2 by lia. change (2 ^ 1) with 2. rewrite (Z.mul_comm 2 c), Z.div_mul by lia. rewrite (Z.mul_comm 2 c) in E. rewrite jac_mul, (jac_2 ps H), Em in E by exact H.
    cbn [fst snd]. split; [split; [lia|]|lia]. rewrite <- E. unfold chi8. destruct ((m mod 8 =? 3) || (m mod 8 =? 5)); ring.
  - cbn [fst snd]. split; [lia|reflexivity].
  - cbn [fst]. rewrite Z.abs_eq by lia. apply bits_spec.
Qed.

Lemma jacobi_ok a m ps : odd_primes ps -> zprod ps = m -> jacobi_symbol a m = Ret (jac a ps).
Proof.
  intros H Em. destruct (odd_zprod ps H) as (Pm & Om). rewrite Em in Pm, Om. unfold jacobi_symbol. rewrite land1_odd, Om. cbn [negb].
  apply (run_rule jacobi_step (fun s => let '(x, k, t) := s in 0 <= x < k /\ exists qs, odd_primes qs /\ zprod qs = k /\ t * jac x qs = jac a ps) (fun s => let '(x, k, t) := s in k) (fun r => r = Ret (jac a ps))).
  - intros ((x, k), t) (Hx & qs & Hq & Ek & E). unfold jacobi_step. destruct (Z.eqb_spec x 0) as [->|N].
    + destruct qs as [|q qs].
      * cbn in Ek. subst k. cbn [Z.eqb Pos.eqb]. rewrite <- E. unfold jac. cbn. rewrite Z.mul_1_r. reflexivity.
      * pose proof (odd_primes_cons _ _ Hq) as ((Pq & Oq) & Hqs). pose proof (odd_zprod qs Hqs) as (Q0 & _). pose proof (prime_ge2 q Pq). rewrite zprod_cons in Ek. destruct (Z.eqb_spec k 1); [nia|]. rewrite <- E. unfold jac. cbn [map]. rewrite zprod_cons, (legendre_0 q (q / 2) Pq (odd_prime q Pq Oq)) by apply Z.divide_0_r. rewrite Z.mul_0_l, Z.mul_0_r. reflexivity.
    + destruct (inner_ok k qs x t Hq Ek ltac:(lia)) as (x' & t' & -> & Hx' & Ox' & E'). cbv zeta. rewrite !land3.
      destruct (odd_prime_list x' ltac:(lia) Ox') as (rs & Hr & Er). split; [|lia]. split; [apply Z.mod_pos_bound; lia|]. exists rs. split; [exact Hr|]. split; [exact Er|].
      rewrite (jac_cg (k mod x') k rs) by (rewrite Er; apply cg_mod). rewrite <- E, <- E'. rewrite <- Er, <- Ek. rewrite (jac_reciprocity qs rs Hq Hr). rewrite sgn4_comm. unfold sgn4. destruct (_ && _); ring.
  - split; [apply Z.mod_pos_bound; exact Pm|]. exists ps. split; [exact H|]. split; [exact Em|]. rewrite Z.mul_1_l. apply jac_cg. rewrite Em. apply cg_mod.
  - rewrite Z.abs_eq by lia. pose proof (bits_spec (m + 1)). lia.
Qed.

(** The prime list of a factorization. *)
Definition primes_of (l : list (Z * Z)) : list Z := flat_map (fun pe => repeat (fst pe) (Z.to_nat (snd pe))) l.
Lemma zprod_repeat p n : zprod (repeat p n) = p ^ Z.of_nat n.
Proof. induction n as [|n IH]; [reflexivity|]. cbn [repeat]. rewrite zprod_cons, IH, Nat2Z.inj_succ, Z.pow_succ_r by lia. reflexivity. Qed.
Lemma map_repeat {A B} (f : A -> B) x n : map f (repeat x n) = repeat (f x) n.
Proof. induction n as [|n IH]; [reflexivity|]. cbn [repeat map]. rewrite IH. reflexivity. Qed.
Lemma primes_of_ok n l : factorization n l -> zprod (primes_of l) = n /\ (forall p, In p (primes_of l) -> prime p) /\ forall a, jac a (primes_of l) = jacobi a l.
Proof.
  revert n. induction l as [|(p, e) l IH]; intros n F.
  - destruct F as (_ & _ & V). cbn in V. subst n. split; [reflexivity|]. split; [intros p []|reflexivity].
  - apply factorization_cons in F as (Hp & He & En & Fl & _). destruct (IH _ Fl) as (H1 & H2 & H3). unfold primes_of. cbn [flat_map fst snd]. fold (primes_of l). split; [|split].
    + rewrite zprod_app, zprod_repeat, H1, Z2Nat.id by lia. symmetry. exact En.
    + intros q Hq. apply in_app_or in Hq as [Hq|Hq]; [apply repeat_spec in Hq; subst; exact Hp|apply H2, Hq].
    + intros a. unfold jac, jacobi. rewrite map_app, zprod_app, map_repeat, zprod_repeat. cbn [map fst snd]. rewrite zprod_cons, Z2Nat.id by lia. fold (jac a (primes_of l)). rewrite H3. reflexivity.
Qed.

Lemma odd_factor n p : Z.odd n = true -> (p | n) -> Z.odd p = true.
Proof. intros O (c & ->). rewrite Z.odd_mul in O. apply andb_prop in O as (_ & O). exact O. Qed.

Lemma jacobi_symbol_ok a m l : 0 < m -> Z.odd m = true -> factorization m l -> jacobi_symbol a m = Ret (jacobi a l).
Proof.
  intros Hm O F. destruct (primes_of_ok m l F) as (H1 & H2 & H3). rewrite <- H3. apply jacobi_ok; [|exact H1]. intros p Hp. split; [apply H2, Hp|]. apply (odd_factor m); [exact O|]. rewrite <- H1. clear - Hp. induction (primes_of l) as [|q ps IH]; [destruct Hp|]. rewrite zprod_cons. destruct Hp as [->|Hp]; [apply Z.divide_factor_l|apply Z.divide_mul_r, IH, Hp].
Qed.

Lemma jacobi_prime a p : prime p -> p <> 2 -> jacobi_symbol a p = Ret (legendre a p).
Proof.
  intros Hp N. assert (O : Z.odd p = true). { destruct (Z.odd p) eqn:O; [reflexivity|]. rewrite <- Z.negb_even in O. apply negb_false_iff, Z.even_spec in O as (c & E). exfalso. apply N. apply prime_even; [exact Hp|exists c; lia]. }
  rewrite (jacobi_ok a p [p]).
  - unfold jac. cbn [map]. rewrite zprod_cons, zprod_nil, Z.mul_1_r. reflexivity.
  - intros q [<-|[]]. auto.
  - rewrite zprod_cons, zprod_nil. lia.
Qed.

(** Negative odd moduli: the result is always 0. *)
Lemma inner_neg m a t : a < 0 -> exists a' t', run (jacobi_inner m) (bits (Z.abs a)) (a, t) = Ret (a', t') /\ a <= a' < 0.
Proof.
  intros Ha. apply (run_rule (jacobi_inner m) (fun s => a <= fst s < 0) (fun s => - fst s) (fun r => exists a' t', r = Ret (a', t') /\ a <= a' < 0)).
  - intros (x, u) Hx. cbn [fst snd] in *. unfold jacobi_inner. rewrite land1_odd. destruct (Z.odd x) eqn:O; cbn [negb]; [exists x, u; auto|].
    rewrite <- Z.negb_even in O. apply negb_false_iff, Z.even_spec in O as (c & ->). rewrite Z.shiftr_div_pow2 by lia. change (2 ^ 1) with 2. rewrite (Z.mul_comm 2 c), Z.div_mul by lia. cbn [fst]. lia.
  - cbn [fst]. lia.
  - cbn [fst]. rewrite Z.abs_neq by lia. apply bits_spec.
Qed.
Lemma jacobi_neg a m : m < 0 -> Z.odd m = true -> jacobi_symbol a m = Ret 0.
Proof.
  intros Hm O. unfold jacobi_symbol. rewrite land1_odd, O. cbn [negb].
  apply (run_rule jacobi_step (fun s => let '(x, k, t) := s in k < x <= 0) (fun s => let '(x, k, t) := s in - k) (fun r => r = Ret 0)).
  - intros ((x, k), t) Hx. unfold jacobi_step. destruct (Z.eqb_spec x 0) as [->|N].
    + destruct (Z.eqb_spec k 1); [lia|reflexivity].
    + destruct (inner_neg k x t ltac:(lia)) as (x' & t' & -> & Hx'). cbv zeta. split; [apply Z.mod_neg_bound; lia|lia].
  - apply Z.mod_neg_bound. exact Hm.
  - rewrite Z.abs_neq by lia. pose proof (bits_spec (- m + 1)). lia.
Qed.
