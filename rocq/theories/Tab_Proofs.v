(** * Sieved tables: phi and sigma *)
From Coq Require Import ZArith List Bool Lia Znumtheory Sorted.
From Verif Require Import Base Py Lists NT Sums PyFloat_Model PyFloat_Proofs Core_Model Sieves_Model Primes_Spec Primality_Spec Primes_Props Factor_Spec Div_Proofs Arith_Spec Arith_Proofs Sqrt_Proofs2 Tab_Model.
Import ListNotations.
Open Scope Z_scope.

(** ** Factorizations exist; exponents *)
Lemma fac_exists n : 1 <= n -> exists l, factorization n l.
Proof.
  intros Hn. assert (G : forall b n, 0 <= b -> 1 <= n <= b -> exists l, factorization n l); [|apply (G n n); lia]. clear n Hn. intros b n Hb. revert n. pattern b. apply natlike_ind; [intros n H; lia| |exact Hb]. clear b Hb.
  intros b Hb IH n Hn. destruct (Z.eq_dec n 1) as [->|N1]; [exists []; split; [constructor|]; split; [intros p e []|reflexivity]|].
  destruct (C20_trial_division n ltac:(lia)) as (p & _ & Hp & (c & Ec) & Min). pose proof (prime_ge2 p Hp).
  assert (1 <= c <= b) by nia. destruct (IH c H0) as (l & F). assert (Ge : forall q k, In (q, k) l -> p <= q).
  { intros q k Hq. destruct F as (F1 & F2 & F3). destruct (F2 q k Hq) as (Pq & _). apply Min; [exact Pq|]. apply Z.divide_trans with c; [|exists p; lia]. apply (factorization_prime_divisor c l q); [split; auto|exact Pq|]. apply in_map_iff. exists (q, k). auto. }
  destruct F as (F1 & F2 & F3). destruct l as [|(q, k) l].
  - exists [(p, 1)]. cbn in F3. subst c. split; [repeat constructor|]. split; [intros q e [E|[]]; injection E as <- <-; split; [exact Hp|lia]|]. unfold fac_value. cbn [map fst snd]. rewrite zprod_cons, zprod_nil, Z.pow_1_r. lia.
  - destruct (Z.eq_dec q p) as [->|Nq].
    + exists ((p, k + 1) :: l). destruct (F2 p k (or_introl eq_refl)) as (_ & Hk). inversion F1 as [|? ? S1 S2]; subst. split; [constructor; [exact S1|exact S2]|]. split.
      * intros q e [E|Hq]; [injection E as <- <-; split; [exact Hp|lia]|]. apply F2. right. exact Hq.
      * unfold fac_value. cbn [map fst snd]. rewrite !zprod_cons. rewrite Z.pow_add_r, Z.pow_1_r by lia. ring.
    + exists ((p, 1) :: (q, k) :: l). split; [constructor; [exact F1|]|].
      * apply Forall_forall. intros (q', k') Hq. cbn [fst]. destruct Hq as [E|Hq]; [injection E as <- <-; pose proof (Ge q k (or_introl eq_refl)); lia|]. inversion F1 as [|? ? S1 S2]; subst. rewrite Forall_forall in S2. specialize (S2 _ Hq). cbn [fst] in S2. pose proof (Ge q k (or_introl eq_refl)). lia.
      * split; [intros q' e [E|Hq]; [injection E as <- <-; split; [exact Hp|lia]|apply F2; exact Hq]|]. subst c. unfold fac_value. cbn [map fst snd]. rewrite (zprod_cons (p ^ 1)), Z.pow_1_r. rewrite Ec. unfold fac_value. cbn [map fst snd]. ring.
Qed.

Definition expo (l : list (Z * Z)) (p : Z) : Z := match find (fun pe => fst pe =? p) l with Some pe => snd pe | None => 0 end.

Lemma expo_cons q e l p : expo ((q, e) :: l) p = if q =? p then e else expo l p.
Proof. unfold expo. cbn [find fst]. destruct (q =? p); reflexivity. Qed.
Lemma expo_out l p : ~ In p (map fst l) -> expo l p = 0.
Proof.
  induction l as [|(q, e) l IH]; intros H; [reflexivity|]. rewrite expo_cons. destruct (Z.eqb_spec q p) as [->|N]; [exfalso; apply H; left; reflexivity|]. apply IH. intros X. apply H. right. exact X.
Qed.
Lemma expo_In l p : In p (map fst l) -> In (p, expo l p) l.
Proof.
  induction l as [|(q, e) l IH]; intros H; [destruct H|]. rewrite expo_cons. destruct (Z.eqb_spec q p) as [->|N]; [left; reflexivity|]. right. apply IH. destruct H as [H|H]; [contradiction|exact H].
Qed.

Lemma expo_nonneg n l p : factorization n l -> 0 <= expo l p.
Proof. intros F. destruct (in_dec Z.eq_dec p (map fst l)) as [H|H]; [|rewrite expo_out by exact H; lia]. apply expo_In in H. destruct F as (_ & F & _). apply F in H. lia. Qed.

Lemma expo_div n l p j : factorization n l -> prime p -> 0 <= j -> ((p ^ j | n) <-> j <= expo l p).
Proof.
  intros F Hp Hj. pose proof (expo_nonneg n l p F) as E0. destruct (in_dec Z.eq_dec p (map fst l)) as [H|H].
  - apply expo_In in H. destruct (factorization_exponent n l p _ F H) as (D & ND). set (e := expo l p) in *. split.
    + intros Dj. destruct (Z_le_gt_dec j e) as [L|G]; [exact L|]. exfalso. apply ND. apply Z.divide_trans with (p ^ j); [|exact Dj]. exists (p ^ (j - (e + 1))). rewrite <- Z.pow_add_r by lia. f_equal. lia.
    + intros L. apply Z.divide_trans with (p ^ e); [|exact D]. exists (p ^ (e - j)). rewrite <- Z.pow_add_r by lia. f_equal. lia.
  - rewrite (expo_out _ _ H). split; [|intros L; replace j with 0 by lia; apply Z.divide_1_l]. intros Dj. destruct (Z_le_gt_dec j 0) as [L|G]; [exact L|]. exfalso. apply H. apply (factorization_prime_divisor n l p F Hp).
    apply Z.divide_trans with (p ^ j); [|exact Dj]. exists (p ^ (j - 1)). replace j with (j - 1 + 1) at 1 by lia. rewrite Z.pow_add_r, Z.pow_1_r by lia. reflexivity.
Qed.

(** A product over all primes of a multiplicative expression reduces to the factorization. *)
Lemma zprod_primes (F : Z -> Z -> Z) : (forall p, F p 0 = 1) -> forall ps l, StronglySorted Z.lt ps -> StronglySorted (fun a b : Z * Z => fst a < fst b) l ->
  (forall q e, In (q, e) l -> In q ps) -> zprod (map (fun p => F p (expo l p)) ps) = zprod (map (fun pe => F (fst pe) (snd pe)) l).
Proof.
  intros F0. induction ps as [|p ps IH]; intros l Sp Sl Inc.
  - destruct l as [|(q, e) l]; [reflexivity|]. destruct (Inc q e (or_introl eq_refl)).
  - inversion Sp as [|? ? Sp1 Sp2]; subst. rewrite Forall_forall in Sp2. cbn [map]. rewrite zprod_cons. destruct l as [|(q, e) l].
    + rewrite expo_out by (intros []). rewrite F0. rewrite (IH []); [reflexivity|exact Sp1|constructor|intros q e []].
    + inversion Sl as [|? ? Sl1 Sl2]; subst. rewrite Forall_forall in Sl2. destruct (Z.eq_dec q p) as [->|N].
      * rewrite expo_cons, Z.eqb_refl. cbn [map fst snd]. rewrite zprod_cons. f_equal. rewrite <- (IH l); [|exact Sp1|exact Sl1|].
        -- f_equal. apply map_ext_in. intros x Hx. rewrite expo_cons. specialize (Sp2 x Hx). destruct (Z.eqb_spec p x); [lia|reflexivity].
        -- intros q e' H. destruct (Inc q e' (or_intror H)) as [E|Hq]; [|exact Hq]. specialize (Sl2 _ H). cbn [fst] in Sl2. lia.
      * assert (Lt : forall q' e', In (q', e') ((q, e) :: l) -> In q' ps).
        { intros q' e' H. destruct (Inc q' e' H) as [E|Hq]; [|exact Hq]. exfalso. destruct (Inc q e (or_introl eq_refl)) as [Eq|Hq]; [congruence|]. specialize (Sp2 q Hq). destruct H as [H|H]; [injection H as <- <-; congruence|]. specialize (Sl2 _ H). cbn [fst] in Sl2. lia. }
        rewrite expo_out; [rewrite F0, Z.mul_1_l; apply IH; assumption|]. intros H. apply in_map_iff in H as ((q', e') & E & H). cbn [fst] in E. subst q'. specialize (Sp2 p (Lt p e' H)). lia.
Qed.

(** ** Sweeps *)
Lemma slice_len_spec a b k i : 0 < k -> (0 <= i < slice_len a b k <-> 0 <= i /\ a + i * k < b).
Proof.
  intros Hk. unfold slice_len. destruct (Z.ltb_spec a b).
  - pose proof (Z.div_mod (b - a - 1) k ltac:(lia)). pose proof (Z.mod_pos_bound (b - a - 1) k Hk). split; intros Hi; nia.
  - split; intros Hi; nia.
Qed.

Lemma srange_In a b k x : 0 < k -> (In x (srange a b k) <-> a <= x < b /\ (k | x - a)).
Proof.
  intros Hk. unfold srange. rewrite in_map_iff. split.
  - intros (i & <- & Hi). apply zrange_In, slice_len_spec in Hi; [|exact Hk]. split; [nia|]. exists i. ring.
  - intros (Hx & i & Ei). exists i. split; [lia|]. apply zrange_In, slice_len_spec; [exact Hk|]. split; [nia|lia].
Qed.

Lemma srange_NoDup a b k : 0 < k -> NoDup (srange a b k).
Proof. intros Hk. unfold srange. apply Lists2.NoDup_map_inj; [apply zrange_NoDup|]. intros i j _ _ E. nia. Qed.

Lemma update_list (f : Z -> Z -> outcome Z) is : forall block, NoDup is -> (forall i, In i is -> 0 <= i < zlen block) ->
  (forall i, In i is -> exists y, f i (rd block i) = Ret y) ->
  exists block', foldM (fun block i => do x <- pyget block i; do y <- f i x; pyset block i y) is block = Ret block' /\ zlen block' = zlen block /\
    forall j, (In j is -> f j (rd block j) = Ret (rd block' j)) /\ (~ In j is -> rd block' j = rd block j).
Proof.
  induction is as [|i is IH]; intros block ND B Ok.
  - exists block. split; [reflexivity|]. split; [reflexivity|]. intros j. split; [intros []|reflexivity].
  - inversion ND as [|? ? Ni ND']; subst. cbn [foldM]. rewrite rd_get by (apply B; left; reflexivity). cbn [bind]. destruct (Ok i (or_introl eq_refl)) as (y & Ey). rewrite Ey. cbn [bind].
    destruct (rd_set block i y) as (b1 & E1 & L1 & R1); [apply B; left; reflexivity|]. rewrite E1. cbn [bind].
    assert (Same : forall j, In j is -> rd b1 j = rd block j) by (intros j Hj; rewrite R1; destruct (Z.eqb_spec j i) as [->|]; [contradiction|reflexivity]).
    destruct (IH b1 ND') as (b2 & E2 & L2 & R2).
    + intros j Hj. rewrite L1. apply B. right. exact Hj.
    + intros j Hj. rewrite Same by exact Hj. apply Ok. right. exact Hj.
    + exists b2. split; [exact E2|]. split; [lia|]. intros j. destruct (R2 j) as (Rin & Rout). split.
      * intros [->|Hj]; [rewrite Rout by exact Ni; rewrite R1, Z.eqb_refl; exact Ey|]. rewrite <- (Same j Hj). apply Rin, Hj.
      * intros Hj. rewrite Rout by (intros X; apply Hj; right; exact X). rewrite R1. destruct (Z.eqb_spec j i) as [->|]; [exfalso; apply Hj; left; reflexivity|reflexivity].
Qed.

(** The multiples of d up to n. *)
Lemma sweep_ok f n d block : 0 < d -> zlen block = n + 1 -> (forall i, 0 < i <= n -> (d | i) -> exists y, f i (rd block i) = Ret y) ->
  exists block', sweep f d (n + 1) d block = Ret block' /\ zlen block' = n + 1 /\ rd block' 0 = rd block 0 /\
    forall j, 0 < j <= n -> ((d | j) -> f j (rd block j) = Ret (rd block' j)) /\ (~ (d | j) -> rd block' j = rd block j).
Proof.
  intros Hd L Ok. assert (In1 : forall i, In i (srange d (n + 1) d) <-> 0 < i <= n /\ (d | i)).
  { intros i. rewrite srange_In by exact Hd. split.
    - intros (Hi & c & Ec). split; [lia|]. exists (c + 1). lia.
    - intros (Hi & c & Ec). split; [|exists (c - 1); lia]. subst i. assert (1 <= c) by nia. nia. }
  destruct (update_list f (srange d (n + 1) d) block) as (b' & E & L' & R).
  - apply srange_NoDup, Hd.
  - intros i Hi. apply In1 in Hi. lia.
  - intros i Hi. apply In1 in Hi. apply Ok; apply Hi.
  - exists b'. split; [exact E|]. split; [lia|]. split; [apply R; rewrite In1; lia|]. intros j Hj. destruct (R j) as (R1 & R2). split.
    + intros D. apply R1, In1. auto.
    + intros D. apply R2. rewrite In1. tauto.
Qed.

(** ** A table of a multiplicative function built prime by prime *)
Section Mult.
  Variable n : Z.
  Hypothesis Hn : 1 <= n.
  Variable F : Z -> Z -> Z.
  Hypothesis F0 : forall p, F p 0 = 1.

  (** [block] holds the part of the function that comes from the primes in [ps]. *)
  Definition partial (ps : list Z) (block : list Z) : Prop :=
    zlen block = n + 1 /\ rd block 0 = 0 /\ forall k l, 1 <= k <= n -> factorization k l -> rd block k = zprod (map (fun p => F p (expo l p)) ps).

  (** The same with the power [J] of [p] taken into account. *)
  Definition upto (ps : list Z) (p J : Z) (block : list Z) : Prop :=
    zlen block = n + 1 /\ rd block 0 = 0 /\
    forall k l, 1 <= k <= n -> factorization k l -> rd block k = zprod (map (fun p => F p (expo l p)) ps) * F p (Z.min (expo l p) J).

  Lemma upto_0 ps p block : partial ps block -> upto ps p 0 block.
  Proof using F0.
    intros (L & Z0 & H). split; [exact L|]. split; [exact Z0|]. intros k l Hk Fk. rewrite (H k l Hk Fk). pose proof (expo_nonneg k l p Fk). rewrite Z.min_r, F0 by lia. ring.
  Qed.

  Lemma upto_done ps p J block : prime p -> 0 <= J -> n < p ^ (J + 1) -> upto ps p J block -> partial (ps ++ [p]) block.
  Proof using Hn.
    intros Hp HJ Lt (L & Z0 & H). split; [exact L|]. split; [exact Z0|]. intros k l Hk Fk. rewrite (H k l Hk Fk), map_app, zprod_app. cbn [map]. rewrite zprod_cons, zprod_nil, Z.mul_1_r. do 2 f_equal. apply Z.min_l.
    destruct (Z_le_gt_dec (expo l p) J) as [G|G]; [exact G|]. exfalso. assert (D : (p ^ (J + 1) | k)) by (apply (expo_div k l p); [exact Fk|exact Hp|lia|lia]). apply Z.divide_pos_le in D; lia.
  Qed.

  (** One sweep over the multiples of p^(J+1). *)
  Lemma upto_step ps p J block f : prime p -> 0 <= J -> upto ps p J block ->
    (forall i B, f i (B * F p J) = Ret (B * F p (J + 1))) ->
    exists block', sweep f (p ^ (J + 1)) (n + 1) (p ^ (J + 1)) block = Ret block' /\ upto ps p (J + 1) block'.
  Proof using Hn.
    intros Hp HJ (L & Z0 & H) Hf. pose proof (prime_ge2 p Hp). assert (P : 0 < p ^ (J + 1)) by (apply Z.pow_pos_nonneg; lia).
    assert (V : forall i l, 0 < i <= n -> factorization i l -> (p ^ (J + 1) | i) -> rd block i = zprod (map (fun p => F p (expo l p)) ps) * F p J /\ J + 1 <= expo l p).
    { intros i l Hi Fi D. apply (expo_div i l p) in D; [|exact Fi|exact Hp|lia]. split; [|exact D]. rewrite (H i l) by (try lia; exact Fi). do 2 f_equal. lia. }
    destruct (sweep_ok f n (p ^ (J + 1)) block P L) as (b' & E & L' & Z' & R).
    - intros i Hi D. destruct (fac_exists i ltac:(lia)) as (l & Fi). destruct (V i l Hi Fi D) as (-> & _). eexists. apply Hf.
    - exists b'. split; [exact E|]. split; [exact L'|]. split; [lia|]. intros k l Hk Fk. destruct (R k ltac:(lia)) as (R1 & R2). destruct (Zdivide_dec (p ^ (J + 1)) k) as [D|D].
      + specialize (R1 D). destruct (V k l ltac:(lia) Fk D) as (Ek & Le). rewrite Ek, Hf in R1. injection R1 as <-. do 2 f_equal. lia.
      + rewrite (R2 D), (H k l Hk Fk). do 2 f_equal. assert (~ J + 1 <= expo l p) by (intros X; apply D, (expo_div k l p); [exact Fk|exact Hp|lia|exact X]). lia.
  Qed.

  Lemma partial_nil block : zlen block = n + 1 -> (forall i, 0 <= i <= n -> rd block i = if i =? 0 then 0 else 1) -> partial [] block.
  Proof using Hn.
    intros L H. split; [exact L|]. split; [rewrite H by lia; reflexivity|]. intros k l Hk Fk. rewrite H by lia. destruct (Z.eqb_spec k 0); [lia|reflexivity].
  Qed.

  Lemma partial_all ps block k l : primes_upto n ps -> partial ps block -> 1 <= k <= n -> factorization k l -> rd block k = zprod (map (fun pe => F (fst pe) (snd pe)) l).
  Proof using F0 Hn.
    intros (S & P) (_ & _ & H) Hk Fk. rewrite (H k l Hk Fk). apply zprod_primes; [exact F0|exact S|apply Fk|]. intros q e Hq. pose proof Fk as (_ & A & _). destruct (A q e Hq) as (Pq & He). apply P. split; [exact Pq|].
    assert (D : (q | k)) by (apply (factorization_prime_divisor k l q Fk Pq), in_map_iff; exists (q, e); auto). apply Z.divide_pos_le in D; lia.
  Qed.
End Mult.

Lemma init_block n : 1 <= n -> exists block, pyset (repeat 1 (Z.to_nat (n + 1))) 0 0 = Ret block /\ zlen block = n + 1 /\ forall i, 0 <= i <= n -> rd block i = if i =? 0 then 0 else 1.
Proof.
  intros Hn. assert (L : zlen (repeat 1 (Z.to_nat (n + 1))) = n + 1) by (rewrite zlen_repeat; lia). destruct (rd_set (repeat 1 (Z.to_nat (n + 1))) 0 0) as (b & E & L' & R); [lia|]. exists b. split; [exact E|]. split; [lia|]. intros i Hi. rewrite R. destruct (Z.eqb_spec i 0); [reflexivity|].
  unfold rd. destruct (Z.ltb_spec i 0); [lia|]. rewrite (nth_indep _ 0 1) by (rewrite repeat_length; lia). apply nth_repeat.
Qed.

(** ** phi *)
Definition Fphi (p e : Z) : Z := if e =? 0 then 1 else p ^ (e - 1) * (p - 1).

Lemma phi_powers n ps p block : 1 <= n -> prime p -> upto n Fphi ps p 1 block -> exists block', run (phi_step n p) (bits n) (p * p, block) = Ret block' /\ partial n Fphi (ps ++ [p]) block'.
Proof.
  intros Hn Hp U. pose proof (prime_ge2 p Hp).
  apply (run_rule (phi_step n p) (fun s => exists J, 1 <= J /\ fst s = p ^ (J + 1) /\ upto n Fphi ps p J (snd s)) (fun s => Z.max 0 (n + 1 - fst s)) (fun r => exists block', r = Ret block' /\ partial n Fphi (ps ++ [p]) block')).
  - intros (pk, b) (J & HJ & Ep & Ub). cbn [fst snd] in *. unfold phi_step. destruct (Z.leb_spec pk n) as [L|L].
    + subst pk. destruct (upto_step n Hn Fphi ps p J b (fun _ x => Ret (x * p)) Hp ltac:(lia) Ub) as (b' & E & Ub').
      * intros _ B. f_equal. unfold Fphi. destruct (Z.eqb_spec J 0); [lia|]. destruct (Z.eqb_spec (J + 1) 0); [lia|]. replace (J + 1 - 1) with (J - 1 + 1) by ring. rewrite Z.pow_add_r, Z.pow_1_r by lia. ring.
      * rewrite E. cbn [fst snd]. split; [exists (J + 1)|].
        -- split; [lia|]. split; [rewrite (Z.pow_add_r p (J + 1)), Z.pow_1_r by lia; reflexivity|exact Ub'].
        -- assert (0 < p ^ (J + 1)) by (apply Z.pow_pos_nonneg; lia). nia.
    + exists b. split; [reflexivity|]. apply (upto_done n Hn Fphi ps p J b Hp); [lia|lia|exact Ub].
  - exists 1. cbn [fst snd]. split; [lia|]. split; [rewrite Z.pow_2_r; reflexivity|exact U].
  - cbn [fst]. apply Z.le_lt_trans with n; [nia|apply bits_spec].
Qed.

Lemma euler_phi_list_ok n : 1 <= n -> exists block, euler_phi_list n = Ret block /\ zlen block = n + 1 /\ rd block 0 = 0 /\ forall k, 1 <= k <= n -> rd block k = totient k.
Proof.
  intros Hn. unfold euler_phi_list. destruct (Z.leb_spec n 0); [lia|]. destruct (init_block n Hn) as (b0 & -> & L0 & R0). cbn [bind]. destruct (C14_primes n) as (ps & -> & Pr). cbn [bind].
  edestruct (foldM_inv (fun block p => do block <- sweep (fun _ x => Ret (x * (p - 1))) p (n + 1) p block; run (phi_step n p) (bits n) (p * p, block)) (partial n Fphi) ps b0) as (b & E & Pb).
  - apply partial_nil; assumption.
  - intros pre p post b Eps Pb. assert (Hp : prime p) by (apply Pr; rewrite Eps; apply in_elt).
    destruct (upto_step n Hn Fphi pre p 0 b (fun _ x => Ret (x * (p - 1))) Hp ltac:(lia) (upto_0 n Fphi (fun _ => eq_refl) pre p b Pb)) as (b1 & E1 & U1).
    + intros _ B. f_equal. unfold Fphi. change (0 =? 0) with true. change (0 + 1 =? 0) with false. change (0 + 1 - 1) with 0. rewrite Z.pow_0_r. ring.
    + rewrite Z.add_0_l, Z.pow_1_r in E1. rewrite E1. cbn [bind]. apply phi_powers; assumption.
  - rewrite E. exists b. split; [reflexivity|]. destruct Pb as (L & Z0 & H1) eqn:EP. split; [exact L|]. split; [exact Z0|]. intros k Hk. destruct (fac_exists k ltac:(lia)) as (l & Fk).
    rewrite (partial_all n Hn Fphi (fun _ => eq_refl) ps b k l Pr (conj L (conj Z0 H1)) Hk Fk), (totient_fac k l Fk). f_equal. apply map_ext_in. intros (p, e) H2. unfold Fphi. cbn [fst snd]. destruct Fk as (_ & A & _). apply A in H2. destruct (Z.eqb_spec e 0); [lia|reflexivity].
Qed.

(** ** sigma *)
Definition geo (x J : Z) : Z := zsum (map (fun i => x ^ i) (zrange 0 (J + 1))).
Definition Fsig (k p e : Z) : Z := geo (p ^ k) e.

Lemma geo_step x J : 2 <= x -> 0 <= J -> forall B, B * geo x J * (x ^ (J + 2) - 1) / (x ^ (J + 1) - 1) = B * geo x (J + 1).
Proof.
  intros Hx HJ B. pose proof (geometric x J HJ) as G1. pose proof (geometric x (J + 1) ltac:(lia)) as G2. fold (geo x J) in G1. fold (geo x (J + 1)) in G2. replace (J + 1 + 1) with (J + 2) in G2 by ring.
  assert (P : 1 < x ^ (J + 1)) by (apply Z.pow_gt_1; lia). symmetry. apply Z.div_unique with 0; [lia|]. rewrite <- G2, <- G1. ring.
Qed.

Lemma sigma_powers n k ps p block : 1 <= n -> 1 <= k -> prime p -> partial n (Fsig k) ps block ->
  exists block', run (sigma_step n p (p ^ k)) (bits n) (p, p ^ k, (p ^ k) ^ 2, block) = Ret block' /\ partial n (Fsig k) (ps ++ [p]) block'.
Proof.
  intros Hn Hk Hp U. pose proof (prime_ge2 p Hp). assert (M : 2 <= p ^ k) by (apply pow_ge2; lia). set (x := p ^ k) in *.
  apply (run_rule (sigma_step n p x) (fun s => let '(pk, last, term, b) := s in exists J, 0 <= J /\ pk = p ^ (J + 1) /\ last = x ^ (J + 1) /\ term = x ^ (J + 2) /\ upto n (Fsig k) ps p J b) (fun s => Z.max 0 (n + 1 - fst (fst (fst s)))) (fun r => exists block', r = Ret block' /\ partial n (Fsig k) (ps ++ [p]) block')).
  - intros (((pk, last), term), b) (J & HJ & Ep & El & Et & Ub). unfold sigma_step. destruct (Z.leb_spec pk n) as [L|L].
    + subst pk. destruct (upto_step n Hn (Fsig k) ps p J b (fun _ y => pydiv (y * (term - 1)) (last - 1)) Hp ltac:(lia) Ub) as (b' & E & Ub').
      * intros _ B. subst last term. assert (P : 1 < x ^ (J + 1)) by (apply Z.pow_gt_1; lia). unfold pydiv. destruct (Z.eqb_spec (x ^ (J + 1) - 1) 0); [lia|]. f_equal. unfold Fsig. fold x. apply geo_step; [exact M|exact HJ].
      * rewrite E. cbn [fst snd]. split; [exists (J + 1)|].
        -- split; [lia|]. split; [rewrite (Z.pow_add_r p (J + 1)), Z.pow_1_r by lia; reflexivity|]. split; [subst term; f_equal; lia|]. split; [|exact Ub']. subst term. replace (J + 1 + 2) with (J + 2 + 1) by ring. rewrite (Z.pow_add_r x (J + 2)), Z.pow_1_r by lia. reflexivity.
        -- assert (0 < p ^ (J + 1)) by (apply Z.pow_pos_nonneg; lia). nia.
    + exists b. split; [reflexivity|]. apply (upto_done n Hn (Fsig k) ps p J b Hp); [lia|lia|exact Ub].
  - exists 0. split; [lia|]. cbn [Z.add]. rewrite !Z.pow_1_r. split; [reflexivity|]. split; [reflexivity|]. split; [reflexivity|]. apply upto_0; [intros q; unfold Fsig, geo; reflexivity|exact U].
  - cbn [fst]. apply Z.le_lt_trans with n; [nia|apply bits_spec].
Qed.

Lemma sigma_sieve_ok n k : 1 <= n -> 1 <= k -> ~ (k = 1 /\ n <= 10 ^ 4) -> exists block, sigma_list n k = Ret block /\ zlen block = n + 1 /\ rd block 0 = 0 /\ forall m, 1 <= m <= n -> rd block m = sigma k m.
Proof.
  intros Hn Hk Big. unfold sigma_list. destruct (Z.leb_spec n 0); [lia|]. destruct (Z.eqb_spec k 0); [lia|]. destruct (Z.ltb_spec k 0); [lia|]. assert (Eb : (k =? 1) && (n <=? 10 ^ 4) = false). { destruct (Z.eqb_spec k 1), (Z.leb_spec n (10 ^ 4)); try reflexivity. exfalso. tauto. } rewrite Eb.
  destruct (init_block n Hn) as (b0 & -> & L0 & R0). cbn [bind]. destruct (C14_primes n) as (ps & -> & Pr). cbn [bind].
  edestruct (foldM_inv (fun block p => let mul := p ^ k in run (sigma_step n p mul) (bits n) (p, mul, mul ^ 2, block)) (partial n (Fsig k)) ps b0) as (b & E & Pb).
  - apply partial_nil; assumption.
  - intros pre p post b Eps Pb. assert (Hp : prime p) by (apply Pr; rewrite Eps; apply in_elt). apply sigma_powers; assumption.
  - exists b. split; [exact E|]. pose proof Pb as (L & Z0 & _). split; [exact L|]. split; [exact Z0|]. intros m Hm. destruct (fac_exists m ltac:(lia)) as (l & Fm).
    rewrite (partial_all n Hn (Fsig k) (fun _ => eq_refl) ps b m l Pr Pb Hm Fm), (sigma_fac k m l Hk Fm). f_equal. apply map_ext_in. intros (p, e) H2. unfold Fsig. cbn [fst snd]. destruct Fm as (_ & A & _). apply A in H2 as (Hp & He). pose proof (prime_ge2 p Hp). pose proof (pow_ge2 p k ltac:(lia) Hk).
    apply Z.div_unique with 0; [lia|]. rewrite <- (geometric (p ^ k) e) by lia. unfold geo. ring.
Qed.
