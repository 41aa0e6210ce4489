(** * Preimages of Euler's totient *)
From Coq Require Import ZArith List Lia Bool Znumtheory Sorted Permutation.
From Verif Require Import Base Py Dict Lists Lists2 NT NT_Prim NT_Prim2 Arith_Spec Factor_Spec Factor_Model Arith_Model Primality_Model Primes_Props Div_Proofs Div_Proofs2 Find_Proofs8 Inv_Model.
Import ListNotations.
Open Scope Z_scope.

Lemma gcd_prime_pow p k a : prime p -> 0 <= k -> ~ (p | a) -> Z.gcd (p ^ k) a = 1.
Proof.
  intros Pp Hk N. apply Zgcd_1_rel_prime. apply rel_prime_sym. pattern k. apply natlike_ind; [rewrite Z.pow_0_r; apply rel_prime_1 || (apply rel_prime_sym, rel_prime_1)| |exact Hk].
  intros x Hx IH. rewrite Z.pow_succ_r by lia. apply rel_prime_mult; [apply rel_prime_sym, prime_rel_prime; assumption|exact IH].
Qed.

Lemma totient_strip p k a : prime p -> 1 <= k -> 0 < a -> ~ (p | a) -> totient (p ^ k * a) = p ^ (k - 1) * (p - 1) * totient a.
Proof.
  intros Pp Hk Ha N. pose proof (prime_ge_2 p Pp). rewrite totient_mul; [rewrite totient_pow by assumption; reflexivity|apply Z.pow_pos_nonneg; lia|exact Ha|apply gcd_prime_pow; [exact Pp|lia|exact N]].
Qed.

Lemma strip_unique p k a k' a' : prime p -> 0 <= k -> 0 <= k' -> ~ (p | a) -> ~ (p | a') -> p ^ k * a = p ^ k' * a' -> k = k' /\ a = a'.
Proof.
  intros Pp. pose proof (prime_ge_2 p Pp).
  assert (G : forall k, 0 <= k -> forall k' a a', k <= k' -> ~ (p | a) -> p ^ k * a = p ^ k' * a' -> k = k' /\ a = a').
  { intros u Hu v x y Hv Nx E. replace v with (u + (v - u)) in E by lia. rewrite Z.pow_add_r, <- Z.mul_assoc in E by lia. apply Z.mul_reg_l in E; [|apply Z.pow_nonzero; lia].
    destruct (Z.eq_dec u v) as [->|D]; [rewrite Z.sub_diag, Z.pow_0_r, Z.mul_1_l in E; auto|]. exfalso. apply Nx. rewrite E. apply Z.divide_mul_l. replace (v - u) with (1 + (v - u - 1)) by lia. rewrite Z.pow_add_r, Z.pow_1_r by lia. apply Z.divide_factor_l. }
  intros Hk Hk' Na Na' E. destruct (Z.le_ge_cases k k') as [C|C]; [apply (G k Hk k' a a' C Na E)|]. destruct (G k' Hk' k a' a C Na' (eq_sym E)) as (-> & ->). auto.
Qed.

(** ** One pair and one prime *)
Definition even_or_1 (d : Z) : Prop := d mod 2 = 0 \/ d = 1.
Definition extends (p : Z) (ab xd : Z * Z) : Prop :=
  exists k, 1 <= k /\ fst xd = p ^ k * fst ab /\ p ^ (k - 1) * (p - 1) * snd xd = snd ab /\ even_or_1 (snd xd).

Lemma pair_loop p a b new : 3 <= p -> 1 <= b -> 1 <= a ->
  exists N, run (pair_step p a) (bits b) (p, b / (p - 1), b mod (p - 1), new) = Ret (new ++ N) /\ NoDup N /\ forall xd, In xd N <-> extends p (a, b) xd.
Proof.
  intros Hp Hb Ha.
  apply (run_rule (pair_step p a)
    (fun s => let '(pk, d, mmod, l) := s in exists k N, 1 <= k /\ pk = p ^ k /\ l = new ++ N /\ NoDup N /\
        (forall xd, In xd N <-> exists j, 1 <= j < k /\ fst xd = p ^ j * a /\ p ^ (j - 1) * (p - 1) * snd xd = b /\ even_or_1 (snd xd)) /\
        (mmod = 0 -> p ^ (k - 1) * (p - 1) * d = b) /\ (mmod <> 0 -> ~ (p ^ (k - 1) * (p - 1) | b)))
    (fun s => let '(pk, d, mmod, l) := s in if mmod =? 0 then d else 0)
    (fun r => exists N, r = Ret (new ++ N) /\ NoDup N /\ forall xd, In xd N <-> extends p (a, b) xd)).
  - intros [[[pk d] mmod] l] (k & N & Hk & -> & -> & ND & IN & E0 & E1). cbn [pair_step].
    assert (Pk : 0 < p ^ (k - 1) * (p - 1)) by (apply Z.mul_pos_pos; [apply Z.pow_pos_nonneg; lia|lia]).
    destruct (Z.eqb_spec mmod 0) as [->|Nm].
    + specialize (E0 eq_refl). assert (Hd : 1 <= d) by (clear - E0 Pk Hb; nia). split.
      * exists (k + 1). set (N' := if (d mod 2 =? 0) || (d =? 1) then N ++ [(p ^ k * a, d)] else N). exists N'. split; [lia|]. split; [rewrite Z.pow_add_r, Z.pow_1_r by lia; reflexivity|].
        split; [unfold N'; destruct ((d mod 2 =? 0) || (d =? 1)); [rewrite app_assoc; reflexivity|reflexivity]|].
        assert (Fresh : ~ In (p ^ k * a, d) N). { intros X. apply IN in X as (j & Hj & X & _). cbn [fst] in X. apply Z.mul_reg_r in X; [|lia]. apply Z.pow_inj_r in X; lia. }
        split; [|split].
        -- unfold N'. destruct ((d mod 2 =? 0) || (d =? 1)); [|exact ND]. apply NoDup_app_intro; [exact ND|constructor; [intros []|constructor]|]. intros x Hx [<-|[]]. exact (Fresh Hx).
        -- intros [x y]. cbn [fst snd]. transitivity (In (x, y) N \/ (x = p ^ k * a /\ y = d /\ even_or_1 d)).
           ++ unfold N', even_or_1. destruct ((d mod 2 =? 0) || (d =? 1)) eqn:B.
              ** rewrite in_app_iff. cbn [In]. apply orb_true_iff in B. rewrite !Z.eqb_eq in B. split; [intros [H|[H|[]]]; [left; exact H|right; injection H as <- <-; auto]|intros [H|(-> & -> & H)]; auto].
              ** apply orb_false_iff in B. rewrite !Z.eqb_neq in B. tauto.
           ++ rewrite IN. cbn [fst snd]. split.
              ** intros [(j & Hj & H)|(-> & -> & H)]; [exists j; split; [lia|exact H]|exists k; split; [lia|]; auto].
              ** intros (j & Hj & Ex & Ey & H). destruct (Z.eq_dec j k) as [->|]; [right|left; exists j; split; [lia|auto]]. split; [exact Ex|]. assert (y = d) by (apply (Z.mul_reg_l y d (p ^ (k - 1) * (p - 1))); lia). subst y. auto.
        -- replace (k + 1 - 1) with (k - 1 + 1) by lia. rewrite Z.pow_add_r, Z.pow_1_r by lia. split.
           ++ intros M. apply Z.mod_divide in M as (c & Ec); [|lia]. rewrite Ec, Z.div_mul by lia. rewrite <- E0, Ec. ring.
           ++ intros M (c & Ec). apply M. apply Z.mod_divide; [lia|]. exists c. rewrite <- E0 in Ec. apply (Z.mul_reg_l _ _ (p ^ (k - 1) * (p - 1))); [lia|]. rewrite Ec. ring.
      * destruct (d mod p =? 0); [|lia]. split; [apply Z.div_pos; lia|apply Z.div_lt; lia].
    + exists N. split; [reflexivity|]. split; [exact ND|]. intros [x y]. rewrite IN. unfold extends. cbn [fst snd]. split; [intros (j & Hj & H); exists j; split; [lia|exact H]|].
      intros (j & Hj & Ex & Ey & H). exists j. split; [|auto]. split; [lia|]. destruct (Z.lt_ge_cases j k) as [C|C]; [exact C|]. exfalso. apply (E1 Nm). rewrite <- Ey. replace (j - 1) with (k - 1 + (j - k)) by lia. rewrite Z.pow_add_r by lia. exists (p ^ (j - k) * y). ring.
  - exists 1, []. split; [lia|]. split; [rewrite Z.pow_1_r; reflexivity|]. split; [rewrite app_nil_r; reflexivity|]. split; [constructor|]. split; [|split].
    + intros xd. split; [intros []|intros (j & Hj & _); lia].
    + cbn [Z.sub Z.add Z.opp Z.pos_sub Z.pow]. intros M. rewrite Z.mul_1_l. apply Z.div_exact in M; [lia|lia].
    + cbn [Z.sub Z.add Z.opp Z.pos_sub Z.pow]. rewrite Z.mul_1_l. intros M D. apply M. apply Z.mod_divide; [lia|exact D].
  - assert (B : b < 2 ^ Z.of_nat (bits b)) by (apply bits_spec || (apply bits_ok; lia)). destruct (b mod (p - 1) =? 0); [|lia]. pose proof (Z.div_le_upper_bound b (p - 1) b ltac:(lia) ltac:(clear - Hp Hb; nia)). lia.
Qed.

(** ** One prime *)
Lemma extends_inj p ab ab' xd : prime p -> ~ (p | fst ab) -> ~ (p | fst ab') -> extends p ab xd -> extends p ab' xd -> ab = ab'.
Proof.
  intros Pp N N' (k & Hk & E & F & _) (k' & Hk' & E' & F' & _). rewrite E in E'. destruct (strip_unique p k (fst ab) k' (fst ab') Pp ltac:(lia) ltac:(lia) N N' E') as (-> & Ea).
  destruct ab as [a b], ab' as [a' b']. cbn [fst snd] in *. congruence.
Qed.

Lemma round_loop p : prime p -> 3 <= p -> forall pairs new, NoDup pairs -> (forall ab, In ab pairs -> 1 <= fst ab /\ 1 <= snd ab /\ ~ (p | fst ab)) ->
  exists N, foldM (fun new_pairs '(a, b) => if b =? 1 then Ret new_pairs else do d <- pydiv b (p - 1); do mmod <- pymod b (p - 1); run (pair_step p a) (bits b) (p, d, mmod, new_pairs)) pairs new = Ret (new ++ N) /\
  NoDup N /\ forall xd, In xd N <-> exists ab, In ab pairs /\ extends p ab xd.
Proof.
  intros Pp Hp. induction pairs as [|[a b] pairs IH]; intros new ND H.
  - exists []. split; [rewrite app_nil_r; reflexivity|]. split; [constructor|]. intros xd. split; [intros []|intros (ab & [] & _)].
  - inversion ND as [|? ? ND1 ND2]; subst. destruct (H (a, b) (or_introl eq_refl)) as (Ha & Hb & Na). cbn [fst snd] in *.
    assert (Step : exists N0, (if b =? 1 then Ret new else do d <- pydiv b (p - 1); do mmod <- pymod b (p - 1); run (pair_step p a) (bits b) (p, d, mmod, new)) = Ret (new ++ N0) /\ NoDup N0 /\ forall xd, In xd N0 <-> extends p (a, b) xd).
    { destruct (Z.eqb_spec b 1) as [->|Nb].
      - exists []. split; [rewrite app_nil_r; reflexivity|]. split; [constructor|]. intros xd. split; [intros []|]. intros (k & Hk & _ & E & _). cbn [snd] in E. exfalso. assert (0 < p ^ (k - 1)) by (apply Z.pow_pos_nonneg; lia). clear - H0 Hp E. set (u := p ^ (k - 1)) in *. assert (G : u * (p - 1) >= 2) by nia. set (v := u * (p - 1)) in *. clearbody u v. assert (v = 1 \/ v = -1) by (apply (Z.mul_eq_1 v (snd xd)), E). lia.
      - unfold pydiv, pymod. destruct (Z.eqb_spec (p - 1) 0) as [|_]; [lia|]. cbn [bind]. apply pair_loop; assumption. }
    destruct Step as (N0 & E0 & D0 & I0). destruct (IH (new ++ N0) ND2 (fun ab X => H ab (or_intror X))) as (N1 & E1 & D1 & I1).
    exists (N0 ++ N1). cbn [foldM]. rewrite E0. cbn [bind]. rewrite E1, app_assoc. split; [reflexivity|]. split.
    + apply NoDup_app_intro; [exact D0|exact D1|]. intros xd X0 X1. apply I0 in X0. apply I1 in X1 as (ab & Hab & X1). destruct (H ab (or_intror Hab)) as (_ & _ & Nab). rewrite (extends_inj p (a, b) ab xd Pp Na Nab X0 X1) in ND1. contradiction.
    + intros xd. rewrite in_app_iff, I0, I1. split; [intros [X|(ab & X & Y)]; [exists (a, b); split; [left; reflexivity|exact X]|exists ab; split; [right; exact X|exact Y]]|intros (ab & [<-|X] & Y); [left; exact Y|right; exists ab; auto]].
Qed.

Definition built (Q : list Z) (a : Z) : Prop := 1 <= a /\ forall q, prime q -> (q | a) -> In q Q.
Definition pairs_inv (n : Z) (Q : list Z) (pairs : list (Z * Z)) : Prop :=
  NoDup pairs /\ forall a b, In (a, b) pairs <-> built Q a /\ 1 <= b /\ totient a * b = n /\ even_or_1 b.

Lemma round_ok n Q p pairs : prime p -> 3 <= p -> ~ In p Q -> pairs_inv n Q pairs ->
  exists pairs', prime_round pairs p = Ret pairs' /\ pairs_inv n (p :: Q) pairs'.
Proof.
  intros Pp Hp NQ (ND & I).
  assert (NP : forall ab, In ab pairs -> 1 <= fst ab /\ 1 <= snd ab /\ ~ (p | fst ab)). { intros [a b] H. apply I in H as ((Ha & Bq) & Hb & _). cbn [fst snd]. split; [exact Ha|]. split; [exact Hb|]. intros D. apply NQ, (Bq p Pp D). }
  destruct (round_loop p Pp Hp pairs [] ND NP) as (N & E & DN & IN). exists (pairs ++ N). unfold prime_round. rewrite E. cbn [bind app]. split; [reflexivity|]. split.
  - apply NoDup_app_intro; [exact ND|exact DN|]. intros [x d] H1 H2. apply IN in H2 as (ab & Hab & k & Hk & Ex & _). cbn [fst] in Ex. apply NP in H1 as (_ & _ & H1). cbn [fst] in H1. apply H1. rewrite Ex. apply Z.divide_mul_l. replace k with (1 + (k - 1)) by lia. rewrite Z.pow_add_r, Z.pow_1_r by lia. apply Z.divide_factor_l.
  - intros x d. rewrite in_app_iff, IN, I. split.
    + intros [((Hx & Bx) & H)|([a b] & Hab & k & Hk & Ex & Ed & Ev)].
      * split; [split; [exact Hx|intros q Pq D; right; apply Bx; assumption]|exact H].
      * cbn [fst snd] in *. destruct (NP _ Hab) as (Ha & Hb & Na). cbn [fst snd] in *. apply I in Hab as ((_ & Bq) & _ & Et & _). assert (Ppos : 0 < p ^ k) by (apply Z.pow_pos_nonneg; lia). assert (Ppos' : 0 < p ^ (k - 1)) by (apply Z.pow_pos_nonneg; lia). split; [split|split; [|split; [|exact Ev]]].
        -- rewrite Ex. clear - Ppos Ha. nia.
        -- intros q Pq D. rewrite Ex in D. apply prime_mult in D as [D|D]; [|right; apply Bq; assumption|exact Pq]. left. symmetry. apply (prime_pow_divide q p k Pq Pp ltac:(lia) D).
        -- clear - Ed Ppos' Hp Hb. assert (0 < p ^ (k - 1) * (p - 1)) by nia. nia.
        -- rewrite Ex, totient_strip by (assumption || lia). rewrite <- Et, <- Ed. ring.
    + intros ((Hx & Bx) & Hd & Et & Ev). destruct (strip_exists p x Pp ltac:(lia)) as (k & a & Hk & Ea & Na & Ha). destruct (Z.eq_dec k 0) as [->|Nk].
      * left. rewrite Z.pow_0_r, Z.mul_1_l in Ea. subst x. split; [split; [lia|]|auto]. intros q Pq D. destruct (Bx q Pq D) as [<-|X]; [contradiction|exact X].
      * right. exists (a, p ^ (k - 1) * (p - 1) * d). rewrite I. assert (Ppos' : 0 < p ^ (k - 1)) by (apply Z.pow_pos_nonneg; lia). split.
        -- split; [split; [lia|]|split; [|split]].
           ++ intros q Pq D. destruct (Bx q Pq) as [<-|X]; [rewrite Ea; apply Z.divide_mul_r, D|contradiction|exact X].
           ++ clear - Ppos' Hp Hd. assert (0 < p ^ (k - 1) * (p - 1)) by nia. nia.
           ++ rewrite <- Et, Ea, totient_strip by (assumption || lia). ring.
           ++ left. assert (O : (p - 1) mod 2 = 0). { destruct (Z.eq_dec ((p - 1) mod 2) 0) as [|O]; [assumption|]. exfalso. assert (D2 : (2 | p)). { pose proof (Z.mod_pos_bound (p - 1) 2 ltac:(lia)). exists ((p - 1) / 2 + 1). pose proof (Z.div_mod (p - 1) 2 ltac:(lia)). lia. } destruct (prime_divisors_cases p 2 Pp D2 ltac:(lia)); lia. }
              apply Z.mod_divide; [lia|]. apply Z.mod_divide in O as (c & Ec); [|lia]. rewrite Ec. exists (p ^ (k - 1) * c * d). ring.
        -- exists k. cbn [fst snd]. split; [lia|]. split; [exact Ea|]. split; [reflexivity|exact Ev].
Qed.

Lemma rounds_ok n : forall ps Q pairs, (forall p, In p ps -> prime p /\ 3 <= p /\ ~ In p Q) -> NoDup ps -> pairs_inv n Q pairs ->
  exists pairs' Q', foldM prime_round ps pairs = Ret pairs' /\ pairs_inv n Q' pairs' /\ forall q, In q Q' <-> In q ps \/ In q Q.
Proof.
  induction ps as [|p ps IH]; intros Q pairs H ND Inv; [exists pairs, Q; split; [reflexivity|]; split; [exact Inv|]; intros q; cbn [In]; tauto|].
  inversion ND as [|? ? ND1 ND2]; subst. destruct (H p (or_introl eq_refl)) as (Pp & Hp & NQ). destruct (round_ok n Q p pairs Pp Hp NQ Inv) as (pairs1 & E1 & Inv1).
  destruct (IH (p :: Q) pairs1) as (pairs' & Q' & E & Inv' & I'); [|exact ND2|exact Inv1|].
  - intros q Hq. destruct (H q (or_intror Hq)) as (Pq & Hq3 & NQq). split; [exact Pq|]. split; [exact Hq3|]. intros [->|X]; contradiction.
  - exists pairs', Q'. cbn [foldM]. rewrite E1. cbn [bind]. split; [exact E|]. split; [exact Inv'|]. intros q. rewrite I'. cbn [In]. tauto.
Qed.

Lemma built_nil a : built [] a <-> a = 1.
Proof.
  split; [intros (Ha & B)|intros ->; split; [lia|]].
  - destruct (Z.eq_dec a 1) as [|N]; [assumption|]. destruct (prime_divisor_exists a ltac:(lia)) as (q & Pq & D). destruct (B q Pq D).
  - intros q Pq D. apply Z.divide_1_r in D. pose proof (prime_ge_2 q Pq). lia.
Qed.

(** ** Values *)
Definition two_powers (n : Z) (P : list Z) : Prop := forall b, In b P <-> exists i, 0 <= i /\ b = 2 ^ i /\ (2 ^ i | n).

Lemma two_powers_even n fac : 1 <= n -> n mod 2 = 0 -> factorization n fac -> exists pe, pyget fac 0 = Ret pe /\ two_powers n (1 :: map (fun i => 2 ^ i) (zrange 1 (snd pe + 1))).
Proof.
  intros Hn Ev F. assert (D2 : (2 | n)) by (apply Z.mod_divide; [lia|exact Ev]). destruct fac as [|[p e] l]; [destruct F as (_ & _ & V); cbn in V; subst n; discriminate|].
  pose proof F as F'. apply factorization_cons in F' as (Pp & He & En & Fl & Lt). pose proof (prime_ge_2 p Pp).
  assert (p = 2). { apply (factorization_prime_divisor _ _ 2 F prime_2) in D2. cbn [map fst In] in D2. destruct D2 as [|D2]; [assumption|]. apply in_map_iff in D2 as ([q k] & E & X). cbn [fst] in E. subst q. specialize (Lt _ _ X). lia. } subst p.
  exists (2, e). split; [reflexivity|]. cbn [snd].
  assert (Od : ~ (2 | fac_value l)). { intros D. apply (factorization_prime_divisor _ _ 2 Fl prime_2) in D. apply in_map_iff in D as ([q k] & E & X). cbn [fst] in E. subst q. specialize (Lt _ _ X). lia. }
  intros b. cbn [In]. rewrite in_map_iff. split.
  - intros [<-|(i & <- & Hi)]; [exists 0; split; [lia|]; split; [reflexivity|]; apply Z.divide_1_l|]. apply zrange_In in Hi. exists i. split; [lia|]. split; [reflexivity|]. rewrite En. apply Z.divide_mul_l. replace e with (i + (e - i)) by lia. rewrite Z.pow_add_r by lia. apply Z.divide_factor_l.
  - intros (i & Hi & -> & D). destruct (Z.eq_dec i 0) as [->|Ni]; [left; reflexivity|right]. exists i. split; [reflexivity|]. apply zrange_In. split; [lia|]. destruct (Z_lt_le_dec i (e + 1)) as [|G]; [assumption|exfalso]. apply Od. destruct D as (c & Ec). exists (c * 2 ^ (i - e - 1)). assert (Z2 : 2 ^ e <> 0) by (apply Z.pow_nonzero; lia). apply (Z.mul_reg_l _ _ (2 ^ e) Z2). rewrite <- En, Ec. replace i with (e + 1 + (i - e - 1)) at 1 by lia. rewrite !Z.pow_add_r, Z.pow_1_r by lia. ring.
Qed.

Lemma odd_strip a : ~ (2 | a) -> a mod 2 = 1.
Proof. intros N. destruct (Z.eq_dec (a mod 2) 0) as [E|E]; [exfalso; apply N, Z.mod_divide; [lia|exact E]|]. pose proof (Z.mod_pos_bound a 2 ltac:(lia)). lia. Qed.

(** The solution a pair contributes, in terms of the power of two in it. *)
Lemma pair_values_In n P a b x : two_powers n P -> 1 <= n -> 1 <= a -> ~ (2 | a) -> 1 <= b -> totient a * b = n ->
  In x (pair_values P (a, b)) <-> (exists j, 1 <= j /\ b = 2 ^ (j - 1) /\ x = 2 ^ j * a) \/ (b = 1 /\ x = a).
Proof.
  intros TP Hn Ha Na Hb E. unfold pair_values. destruct (existsb (Z.eqb b) P) eqn:Ex.
  - apply existsb_exists in Ex as (y & Hy & Ey). apply Z.eqb_eq in Ey. subst y. apply TP in Hy as (i & Hi & -> & _). cbn [In]. split.
    + intros [<-|H]; [left; exists (i + 1); split; [lia|]; split; [f_equal; lia|]; rewrite Z.pow_add_r, Z.pow_1_r by lia; ring|]. destruct (Z.eqb_spec (2 ^ i) 1) as [E1|]; [|destruct H]. destruct H as [<-|[]]. right. auto.
    + intros [(j & Hj & Ej & ->)|(E1 & ->)]; [left|right; rewrite E1; left; reflexivity]. rewrite Ej. replace j with (1 + (j - 1)) at 2 by lia. rewrite Z.pow_add_r, Z.pow_1_r by lia. reflexivity.
  - assert (NP : ~ In b P). { intros H. assert (existsb (Z.eqb b) P = true) by (apply existsb_exists; exists b; split; [exact H|apply Z.eqb_refl]). congruence. }
    split; [intros []|]. intros H. apply NP, TP. assert (Db : (b | n)) by (exists (totient a); symmetry; exact E). destruct H as [(j & Hj & Ej & _)|(E1 & _)].
    + exists (j - 1). split; [lia|]. split; [exact Ej|]. rewrite <- Ej. exact Db.
    + exists 0. split; [lia|]. split; [exact E1|]. apply Z.divide_1_l.
Qed.

Lemma pair_values_NoDup P ab : 1 <= fst ab -> 1 <= snd ab -> NoDup (pair_values P ab).
Proof.
  destruct ab as [a b]. cbn [fst snd]. intros Ha Hb. unfold pair_values. destruct (existsb _ _); [|constructor]. destruct (Z.eqb_spec b 1) as [->|]; constructor; [|constructor; [intros []|constructor]|intros []|constructor]. intros [H|[]]. lia.
Qed.

Lemma totient_odd_even j a : 1 <= j -> 0 < a -> ~ (2 | a) -> totient (2 ^ j * a) = 2 ^ (j - 1) * totient a.
Proof. intros Hj Ha N. rewrite totient_strip by (assumption || apply prime_2). ring. Qed.

Lemma values_ok n P Q pairs : 1 <= n -> two_powers n P -> pairs_inv n Q pairs -> ~ In 2 Q -> (forall q, prime q -> 3 <= q -> (q - 1 | n) -> In q Q) ->
  NoDup (flat_map (pair_values P) pairs) /\ forall x, In x (flat_map (pair_values P) pairs) <-> 1 <= x /\ totient x = n.
Proof.
  intros Hn TP (ND & I) N2 CQ.
  assert (Pa : forall a b, In (a, b) pairs -> 1 <= a /\ 1 <= b /\ ~ (2 | a) /\ totient a * b = n). { intros a b H. apply I in H as ((Ha & Ba) & Hb & E & _). split; [exact Ha|]. split; [exact Hb|]. split; [|exact E]. intros D. apply N2, (Ba 2 prime_2 D). }
  assert (V : forall a b x, In (a, b) pairs -> In x (pair_values P (a, b)) -> exists j, 0 <= j /\ x = 2 ^ j * a /\ (j = 0 -> b = 1) /\ (1 <= j -> b = 2 ^ (j - 1))).
  { intros a b x H X. destruct (Pa a b H) as (Ha & Hb & Na & E). apply (pair_values_In n P a b x TP Hn Ha Na Hb E) in X as [(j & Hj & Ej & Ex)|(E1 & Ex)]; [exists j; split; [lia|]; split; [exact Ex|]; split; [lia|]; intros _; exact Ej|exists 0; split; [lia|]; rewrite Z.pow_0_r, Z.mul_1_l; split; [exact Ex|]; split; [auto|lia]]. }
  split.
  - apply NoDup_flat_map; [exact ND| |].
    + intros [a b] H. destruct (Pa a b H) as (Ha & Hb & _). apply pair_values_NoDup; assumption.
    + intros [a b] [a' b'] x H H' X X'. destruct (V a b x H X) as (j & Hj & Ex & J0 & J1), (V a' b' x H' X') as (j' & Hj' & Ex' & J0' & J1').
      destruct (Pa a b H) as (_ & _ & Na & _), (Pa a' b' H') as (_ & _ & Na' & _). destruct (strip_unique 2 j a j' a' prime_2 Hj Hj' Na Na' ltac:(congruence)) as (<- & <-). f_equal. destruct (Z.eq_dec j 0) as [E0|N0]; [rewrite J0, J0' by exact E0; reflexivity|rewrite J1, J1' by lia; reflexivity].
  - intros x. rewrite in_flat_map. split.
    + intros ([a b] & H & X). destruct (V a b x H X) as (j & Hj & -> & J0 & J1). destruct (Pa a b H) as (Ha & Hb & Na & E). assert (0 < 2 ^ j) by (apply Z.pow_pos_nonneg; lia). split; [clear - H0 Ha; nia|]. destruct (Z.eq_dec j 0) as [->|N0]; [rewrite Z.pow_0_r, Z.mul_1_l; rewrite J0 in E by reflexivity; lia|]. rewrite totient_odd_even by (assumption || lia). rewrite <- J1 by lia. rewrite <- E. ring.
    + intros (Hx & Et). destruct (strip_exists 2 x prime_2 ltac:(lia)) as (j & a & Hj & Ex & Na & Ha).
      set (b := if j =? 0 then 1 else 2 ^ (j - 1)). assert (Hb : 1 <= b) by (unfold b; destruct (Z.eqb_spec j 0); [lia|assert (0 < 2 ^ (j - 1)) by (apply Z.pow_pos_nonneg; lia); lia]).
      assert (E : totient a * b = n). { rewrite <- Et, Ex. unfold b. destruct (Z.eqb_spec j 0) as [->|N0]; [rewrite Z.pow_0_r, Z.mul_1_l; ring|rewrite totient_odd_even by (assumption || lia); ring]. }
      assert (H : In (a, b) pairs).
      { apply I. split; [split; [lia|]|split; [exact Hb|split; [exact E|]]].
        - intros q Pq D. pose proof (prime_ge_2 q Pq). assert (q <> 2) by (intros ->; contradiction). apply CQ; [exact Pq|lia|]. destruct (strip_exists q a Pq Ha) as (k & m & Hk & Em & Nm & Hm). assert (k <> 0). { intros ->. apply Nm. rewrite Z.pow_0_r, Z.mul_1_l in Em. rewrite <- Em. exact D. } rewrite <- E, Em, totient_strip by (assumption || lia). exists (q ^ (k - 1) * totient m * b). ring.
        - unfold b. destruct (Z.eqb_spec j 0); [right; reflexivity|]. destruct (Z.eq_dec j 1) as [->|]; [right; reflexivity|left]. apply Z.mod_divide; [lia|]. replace (j - 1) with (1 + (j - 2)) by lia. rewrite Z.pow_add_r, Z.pow_1_r by lia. apply Z.divide_factor_l. }
      exists (a, b). split; [exact H|]. apply (pair_values_In n P a b x TP Hn ltac:(lia) Na Hb E). unfold b. destruct (Z.eqb_spec j 0) as [->|N0]; [right; split; [reflexivity|]; rewrite Z.pow_0_r, Z.mul_1_l in Ex; exact Ex|left; exists j; split; [lia|]; split; [reflexivity|exact Ex]].
Qed.

(** ** The whole function *)
Lemma list_prime_oracle : forall l, exists q : Z -> bool, forall x, In x l -> is_prime x = Ret (q x) /\ (q x = true <-> prime x).
Proof.
  intros l. exists (fun x => match is_prime x with Ret b => b | _ => false end). intros x _. destruct (C16_is_prime x) as (b & -> & E). split; [reflexivity|exact E].
Qed.

Lemma prime_filter l : exists r, filterM is_prime l = Ret r /\ (forall q, In q r <-> In q l /\ prime q) /\ (NoDup l -> NoDup r).
Proof.
  destruct (list_prime_oracle l) as (q & Hq). exists (filter q l). split; [apply filterM_ret; intros x Hx; apply Hq, Hx|]. split; [|intros ND; apply NoDup_filter, ND].
  intros x. rewrite filter_In. split; intros (H1 & H2); split; try exact H1; apply (proj2 (Hq x H1)); exact H2.
Qed.

Lemma prime_candidates n ds : 1 <= n -> divisor_list n ds -> exists ps, filterM is_prime (map (fun d => d + 1) (tl ds)) = Ret ps /\ NoDup ps /\ forall q, In q ps <-> prime q /\ 3 <= q /\ (q - 1 | n).
Proof.
  intros Hn (Sd & Id). destruct (prime_filter (map (fun d => d + 1) (tl ds))) as (ps & E & I & ND). exists ps. split; [exact E|].
  assert (Hd : exists l, ds = 1 :: l). { destruct ds as [|d l]; [destruct (proj2 (Id 1)); split; [lia|apply Z.divide_1_l]|]. exists l. f_equal. assert (Hd : 0 < d) by (apply (proj1 (Id d)); left; reflexivity). destruct (proj2 (Id 1) ltac:(split; [lia|apply Z.divide_1_l])) as [|H1]; [assumption|]. inversion Sd as [|? ? S1 S2]; subst. rewrite Forall_forall in S2. specialize (S2 1 H1). lia. }
  destruct Hd as (l & ->). inversion Sd as [|? ? S1 S2]; subst. rewrite Forall_forall in S2. cbn [tl] in *. split.
  - apply ND. apply NoDup_map_inj; [|intros x y _ _ H; lia]. clear - S1. induction S1 as [|x l S IH H]; constructor; [|exact IH]. intros X. rewrite Forall_forall in H. specialize (H x X). lia.
  - intros q. rewrite I, in_map_iff. split.
    + intros ((d & <- & Hd) & Pq). split; [exact Pq|]. pose proof (S2 d Hd). split; [lia|]. replace (d + 1 - 1) with d by lia. apply (proj1 (Id d)). right. exact Hd.
    + intros (Pq & Hq & D). split; [|exact Pq]. exists (q - 1). split; [lia|]. destruct (proj2 (Id (q - 1)) ltac:(split; [lia|exact D])) as [H1|H1]; [lia|exact H1].
Qed.

Lemma totient_1 : totient 1 = 1.
Proof. reflexivity. Qed.

Section Main.
  Context (fact : Z -> outcome (list (Z * Z))).

  Lemma main_even n fac : 2 <= n -> n mod 2 = 0 -> factorization n fac ->
    exists l, phi_inverse_main fact n fac = Ret l /\ StronglySorted Z.lt l /\ forall x, In x l <-> 1 <= x /\ totient x = n.
  Proof.
    intros Hn Ev F. unfold phi_inverse_main. rewrite Ev. cbn [Z.eqb]. destruct (two_powers_even n fac ltac:(lia) Ev F) as (pe & -> & TP). cbn [bind].
    destruct (divisors_fac_ok fact None n fac F ltac:(lia)) as (ds & -> & Hds). cbn [bind]. destruct (prime_candidates n ds ltac:(lia) Hds) as (ps & -> & NDp & Ip). cbn [bind].
    destruct (rounds_ok n (rev ps) [] [(1, n)]) as (pairs & Q & -> & Inv & IQ).
    - intros p Hp. apply in_rev in Hp. apply Ip in Hp as (Pp & H3 & _). split; [exact Pp|]. split; [exact H3|]. intros [].
    - apply NoDup_rev, NDp.
    - split; [constructor; [intros []|constructor]|]. intros a b. rewrite built_nil. cbn [In]. split.
      + intros [H|[]]. injection H as <- <-. split; [reflexivity|]. split; [lia|]. split; [rewrite totient_1; ring|left; exact Ev].
      + intros (-> & Hb & E & _). left. rewrite totient_1 in E. f_equal. lia.
    - cbn [bind]. destruct (values_ok n _ Q pairs ltac:(lia) TP Inv) as (NDv & Iv).
      + intros H. apply IQ in H as [H|[]]. apply in_rev in H. apply Ip in H. lia.
      + intros q Pq Hq D. apply IQ. left. apply in_rev. rewrite rev_involutive. apply Ip. auto.
      + eexists. split; [reflexivity|]. split; [apply zsort_strict, NDv|]. intros x. rewrite zsort_In. apply Iv.
  Qed.

  Lemma no_odd_preimage n x : 3 <= n -> n mod 2 = 1 -> 1 <= x -> totient x <> n.
  Proof.
    intros Hn Od Hx E. destruct (Z_lt_le_dec 2 x) as [H|H].
    - pose proof (totient_even x H) as D. rewrite E in D. apply Z.mod_divide in D; lia.
    - assert (C : x = 1 \/ x = 2) by lia. destruct C as [-> | ->]; vm_compute in E; lia.
  Qed.

  Lemma main_odd n fac : 3 <= n -> n mod 2 = 1 -> factorization n fac -> phi_inverse_main fact n fac = Ret [].
  Proof.
    intros Hn Od F. unfold phi_inverse_main. rewrite Od. cbn [Z.eqb bind].
    destruct (divisors_fac_ok fact None n fac F ltac:(lia)) as (ds & -> & Hds). cbn [bind]. destruct (prime_candidates n ds ltac:(lia) Hds) as (ps & -> & NDp & Ip). cbn [bind].
    assert (ps = []) as ->.
    { destruct ps as [|p ps]; [reflexivity|exfalso]. destruct (proj1 (Ip p) (or_introl eq_refl)) as (Pp & H3 & (c & Ec)). assert (P2 : p mod 2 = 1). { apply odd_strip. intros D. destruct (prime_divisors_cases p 2 Pp D ltac:(lia)); lia. }
      pose proof (Z.div_mod p 2 ltac:(lia)). pose proof (Z.div_mod n 2 ltac:(lia)). rewrite P2, Od in *. assert (n = 2 * (c * (p / 2))) by nia. lia. }
    cbn [rev app foldM bind]. f_equal. cbn [flat_map app pair_values existsb]. destruct (Z.eqb_spec n 1); [lia|]. reflexivity.
  Qed.

  Lemma inverse_one x : 1 <= x /\ totient x = 1 <-> x = 1 \/ x = 2.
  Proof.
    split; [|intros [-> | ->]; split; [lia|reflexivity|lia|reflexivity]]. intros (Hx & E). destruct (Z_lt_le_dec 2 x) as [H|H]; [|lia].
    pose proof (totient_even x H) as D. rewrite E in D. apply Z.divide_1_r_nonneg in D; lia.
  Qed.

  Lemma fac_main n fac : 2 <= n -> factorization n fac ->
    exists l, phi_inverse_main fact n fac = Ret l /\ StronglySorted Z.lt l /\ forall x, In x l <-> 1 <= x /\ totient x = n.
  Proof.
    intros Hn F. destruct (Z.eq_dec (n mod 2) 0) as [Ev|Od]; [apply main_even; assumption|]. pose proof (Z.mod_pos_bound n 2 ltac:(lia)). assert (n <> 2) by (intros ->; apply Od; reflexivity).
    exists []. split; [apply main_odd; [lia|lia|exact F]|]. split; [constructor|]. intros x. split; [intros []|]. intros (Hx & E). destruct (no_odd_preimage n x ltac:(lia) ltac:(lia) Hx E).
  Qed.
End Main.
