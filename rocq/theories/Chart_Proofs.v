(** * Proofs about chartres *)
From Coq Require Import ZArith List Bool Lia Permutation Sorting.Sorted Znumtheory.
From Verif Require Import Base Loop Lists2 NT Primes_Spec Paths_Model Paths_Proofs2 Bertrand2 Chart_Model.
Import ListNotations.
Open Scope Z_scope.

(** ** Numbers coprime to 6 *)
Definition c6 (x : Z) : Prop := x mod 6 = 1 \/ x mod 6 = 5.
Definition dstep (x : Z) : Z := if x mod 6 =? 5 then 2 else 4.

Lemma c6_cases x : c6 x -> exists a, (x = 6 * a + 1 /\ dstep x = 4) \/ (x = 6 * a + 5 /\ dstep x = 2).
Proof.
  intros H. exists (x / 6). pose proof (Z.div_mod x 6 ltac:(lia)) as E. unfold dstep. destruct H as [H|H]; rewrite H in *; [left|right]; (split; [exact E|reflexivity]).
Qed.
Lemma c6_1 a : c6 (6 * a + 1) /\ dstep (6 * a + 1) = 4.
Proof. unfold c6, dstep. replace (6 * a + 1) with (1 + a * 6) by ring. rewrite Z_mod_plus_full. split; [left|]; reflexivity. Qed.
Lemma c6_5 a : c6 (6 * a + 5) /\ dstep (6 * a + 5) = 2.
Proof. unfold c6, dstep. replace (6 * a + 5) with (5 + a * 6) by ring. rewrite Z_mod_plus_full. split; [right|]; reflexivity. Qed.

Lemma c6_next x : c6 x -> c6 (x + dstep x) /\ dstep (x + dstep x) = 6 - dstep x /\ (dstep x = 2 \/ dstep x = 4) /\
  forall y, c6 y -> x < y -> x + dstep x <= y.
Proof.
  intros H. destruct (c6_cases x H) as (a & [(E & D)|(E & D)]); rewrite D.
  - split; [replace (x + 4) with (6 * a + 5) by lia; apply c6_5|]. split; [replace (x + 4) with (6 * a + 5) by lia; apply c6_5|]. split; [lia|].
    intros y Hy L. destruct (c6_cases y Hy) as (b & [(F & _)|(F & _)]); lia.
  - split; [replace (x + 2) with (6 * (a + 1) + 1) by lia; apply c6_1|]. split; [replace (x + 2) with (6 * (a + 1) + 1) by lia; apply c6_1|]. split; [lia|].
    intros y Hy L. destruct (c6_cases y Hy) as (b & [(F & _)|(F & _)]); lia.
Qed.

Lemma c6_not x : c6 x <-> ~ (2 | x) /\ ~ (3 | x).
Proof.
  split.
  - intros H. destruct (c6_cases x H) as (a & [(E & _)|(E & _)]); split; intros (k & K); lia.
  - intros (N2 & N3). unfold c6. pose proof (Z.mod_pos_bound x 6 ltac:(lia)) as B. pose proof (Z.div_mod x 6 ltac:(lia)) as E.
    set (a := x / 6) in *. set (m := x mod 6) in *. clearbody a m.
    assert (m <> 0 /\ m <> 2 /\ m <> 4) by (repeat split; intros ->; apply N2; [exists (3 * a)|exists (3 * a + 1)|exists (3 * a + 2)]; lia).
    assert (m <> 3) by (intros ->; apply N3; exists (2 * a + 1); lia). lia.
Qed.

Lemma c6_prime p : prime p -> 5 <= p -> c6 p.
Proof. intros P L. apply c6_not. split; intros D; [destruct (prime_divisors_cases p 2 P D)|destruct (prime_divisors_cases p 3 P D)]; lia. Qed.

Lemma c6_factor r j : c6 (r * j) -> c6 r /\ c6 j.
Proof. rewrite !c6_not. intros (A & B). split; split; intros D; [apply A, Z.divide_mul_l, D|apply B, Z.divide_mul_l, D|apply A, Z.divide_mul_r, D|apply B, Z.divide_mul_r, D]. Qed.

Lemma c6_mul r j : c6 r -> c6 j -> c6 (r * j).
Proof.
  rewrite !c6_not. intros (A & B) (C & D). split; intros K; apply prime_mult in K; try tauto; [apply prime_2|apply prime_3].
Qed.

(** ** The invariant *)
Definition val (e : entry) : Z := fst (fst e).
Definition ent (c q : Z) (e : entry) : Prop := exists r k, prime r /\ 5 <= r /\ r <= k /\ c6 k /\ e = (r * k, r * dstep k, 6 * r) /\
  forall j, c6 j -> r <= j < k -> r * j < c \/ r * j = q.
Definition hinv (c q t p : Z) (heap : list entry) : Prop :=
  (forall e, In e heap -> ent c q e /\ q <= val e) /\
  (forall r, prime r -> 5 <= r <= p -> exists e, In e heap /\ snd e = 6 * r) /\
  prime p /\ 5 <= p /\ t = p * p /\ q <= t /\ (q < t -> exists e, In e heap /\ val e = t) /\
  (exists r k, prime r /\ 2 <= k /\ q = r * k) /\ c6 q.

Lemma entry_ltb_1 x y : entry_ltb x y = true -> val x <= val y.
Proof. destruct x as ((a, b), c), y as ((a', b'), c'). unfold entry_ltb, val. cbn [fst]. rewrite orb_true_iff, andb_true_iff, Z.ltb_lt, Z.eqb_eq. lia. Qed.
Lemma entry_ltb_2 x y : entry_ltb x y = false -> val y <= val x.
Proof. destruct x as ((a, b), c), y as ((a', b'), c'). unfold entry_ltb, val. cbn [fst]. rewrite orb_false_iff, Z.ltb_ge. lia. Qed.

Definition load (c : Z) (heap : list entry) : Z := zsum (map (fun e => Z.max 0 (c - fst (fst e))) heap).
Lemma load_nonneg c heap : 0 <= load c heap.
Proof. unfold load. induction heap as [|e h IH]; cbn [map]; [cbn; lia|]. rewrite zsum_cons. lia. Qed.
Lemma load_perm c h h' : Permutation h h' -> load c h = load c h'.
Proof. unfold load. induction 1; cbn [map]; rewrite ?zsum_cons in *; lia. Qed.

Lemma pop_ok c q t p heap : c6 c -> c <= t -> heap <> [] -> hinv c q t p heap ->
  exists q' heap', pop_loop c q heap = Ret (q', heap') /\ hinv c q' t p heap' /\ c <= q' /\ heap' <> [].
Proof.
  intros Hc Ht Hne H.
  assert (G : exists s, pop_loop c q heap = Ret s /\ hinv c (fst s) t p (snd s) /\ c <= fst s /\ snd s <> []).
  2:{ destruct G as ((q' & heap') & E & A). exists q', heap'. auto. }
  unfold pop_loop. apply (run_rule (pop_step c) (fun s => hinv c (fst s) t p (snd s) /\ snd s <> [])
    (fun s => load c (snd s) + (if fst s <? c then 1 else 0)) (fun r => exists s, r = Ret s /\ hinv c (fst s) t p (snd s) /\ c <= fst s /\ snd s <> [])).
  - intros (q0, h0) (I & Ne). cbn [fst snd] in *. unfold pop_step. destruct (Z.ltb_spec q0 c) as [L|L]; [|exists (q0, h0); auto].
    destruct h0 as [|x l]; [contradiction|]. destruct (pop_min entry_ltb x l) as (m, rest) eqn:Ep.
    destruct (pop_min_ok entry_ltb val entry_ltb_1 entry_ltb_2 l x m rest Ep) as (P & Mn).
    destruct I as (I1 & I2 & I3 & I4 & I5 & I6 & I7 & I8 & I9).
    assert (Im : In m (x :: l)) by (apply (Permutation_in _ (Permutation_sym P)); left; reflexivity).
    destruct (I1 m Im) as ((r & k & Pr & R5 & Rk & Ck & Em & Ej) & Qm). subst m. cbn [fst snd]. unfold val in Qm. cbn [fst] in Qm.
    destruct (c6_next k Ck) as (N1 & N2 & N3 & N4).
    assert (Erk : (r * k + r * dstep k, 6 * r - r * dstep k, 6 * r) = (r * (k + dstep k), r * dstep (k + dstep k), 6 * r)) by (rewrite N2; apply f_equal2; [apply f_equal2; ring|reflexivity]).
    assert (Pos : r * k < r * (k + dstep k)) by (apply Z.mul_lt_mono_pos_l; lia).
    split; [split; [|discriminate]|].
    + unfold hinv. split; [|split; [|split; [exact I3|split; [exact I4|split; [exact I5|split; [|split; [|split]]]]]]].
      * intros e [<-|Ie].
        -- split; [|unfold val; cbn [fst]; lia]. exists r, (k + dstep k). split; [exact Pr|]. split; [exact R5|]. split; [lia|]. split; [exact N1|]. split; [exact Erk|].
           intros j Cj Bj. destruct (Z.lt_trichotomy j k) as [Lj|[->|Lj]]; [|right; reflexivity|specialize (N4 j Cj Lj); lia].
           left. destruct (Ej j Cj ltac:(lia)); lia.
        -- destruct (I1 e) as ((r' & k' & A1 & A2 & A3 & A4 & A5 & A6) & A7); [apply (Permutation_in _ (Permutation_sym P)); right; exact Ie|]. split.
           ++ exists r', k'. split; [exact A1|]. split; [exact A2|]. split; [exact A3|]. split; [exact A4|]. split; [exact A5|]. intros j Cj Bj. left. destruct (A6 j Cj Bj); lia.
           ++ apply (Mn e). apply (Permutation_in _ (Permutation_sym P)). right; exact Ie.
      * intros r' Pr' Br'. destruct (I2 r' Pr' Br') as (e & Ie & Ee). apply (Permutation_in _ P) in Ie. destruct Ie as [Ie|Ie]; [|exists e; split; [right; exact Ie|exact Ee]].
        eexists. split; [left; reflexivity|]. subst e. cbn [snd] in *. exact Ee.
      * destruct (I7 ltac:(lia)) as (e & Ie & Ee). specialize (Mn e Ie). unfold val in Mn at 1. cbn [fst] in Mn. lia.
      * intros Lt. destruct (I7 ltac:(lia)) as (e & Ie & Ee). apply (Permutation_in _ P) in Ie. destruct Ie as [Ie|Ie]; [|exists e; split; [right; exact Ie|exact Ee]].
        subst e. unfold val in Ee. cbn [fst] in Ee. lia.
      * exists r, k. split; [exact Pr|]. split; [lia|reflexivity].
      * apply c6_mul; [apply c6_prime; assumption|exact Ck].
    + rewrite (load_perm c _ _ P). unfold load. cbn [map fst]. rewrite !zsum_cons. fold (load c rest). pose proof (load_nonneg c rest).
      assert (0 < r * dstep k) by (apply Z.mul_pos_pos; lia).
      destruct (Z.ltb_spec (r * k) c), (Z.ltb_spec q0 c); lia.
  - cbn [fst snd]. auto.
  - unfold pop_fuel. eapply Z.le_lt_trans; [|apply bits_spec]. cbn [fst snd]. fold (load c heap). destruct (q <? c); lia.
Qed.

(** [primes] is the list of 0 and the primes below [c]. *)
Definition below (c : Z) (primes : list Z) : Prop := StronglySorted Z.lt primes /\ forall x, In x primes <-> x = 0 \/ (prime x /\ x < c).

Lemma sorted_snoc l x : StronglySorted Z.lt l -> (forall y, In y l -> y < x) -> StronglySorted Z.lt (l ++ [x]).
Proof.
  induction 1 as [|a l S IH F]; intros H; cbn [app]; [repeat constructor|]. constructor; [apply IH; intros y I; apply H; right; exact I|].
  rewrite Forall_forall in *. intros y I. apply in_app_iff in I. destruct I as [I|[<-|[]]]; [apply F, I|apply H; left; reflexivity].
Qed.

Lemma below_next_prime c l : c6 c -> 5 <= c -> below c l -> prime c -> below (c + dstep c) (l ++ [c]).
Proof.
  intros Hc Lc (S & B) P. destruct (c6_next c Hc) as (_ & _ & D & N). split.
  - apply sorted_snoc; [exact S|]. intros y I. apply B in I. lia.
  - intros x. rewrite in_app_iff, B. cbn [In]. split.
    + intros [[K|(K1 & K2)]|[<-|[]]]; [left; exact K|right; split; [exact K1|lia]|right; split; [exact P|lia]].
    + intros [K|(K1 & K2)]; [left; left; exact K|]. destruct (Z.lt_trichotomy x c) as [L|[L|L]]; [left; right; auto|right; left; congruence|].
      exfalso. specialize (N x (c6_prime x K1 ltac:(lia)) L). lia.
Qed.

Lemma below_next_composite c l : c6 c -> 5 <= c -> below c l -> ~ prime c -> below (c + dstep c) l.
Proof.
  intros Hc Lc (S & B) P. destruct (c6_next c Hc) as (_ & _ & D & N). split; [exact S|]. intros x. rewrite B. split.
  - intros [K|(K1 & K2)]; [left; exact K|right; split; [exact K1|lia]].
  - intros [K|(K1 & K2)]; [left; exact K|]. right. split; [exact K1|]. destruct (Z.lt_trichotomy x c) as [L|[L|L]]; [exact L|subst; contradiction|].
    exfalso. specialize (N x (c6_prime x K1 ltac:(lia)) L). lia.
Qed.

(** Between the candidate and [q] every candidate is prime. *)
Lemma candidate_prime c q t p heap x : hinv c q t p heap -> c6 x -> 5 <= x -> c <= x < q -> prime x.
Proof.
  intros (I1 & I2 & I3 & I4 & I5 & I6 & _) Cx L5 Bx. destruct (prime_dec x) as [P|N]; [exact P|exfalso].
  destruct (composite_split x ltac:(lia) N) as (r & m & Pr & Ex & Lm & Lr & _).
  assert (Cr : c6 r /\ c6 m) by (apply c6_factor; rewrite <- Ex; exact Cx). pose proof (prime_ge2 r Pr) as R2.
  assert (R5 : 5 <= r) by (destruct (c6_cases r (proj1 Cr)) as (a & [(E & _)|(E & _)]); lia).
  assert (Rp : r <= p). { destruct (Z.le_gt_cases r p) as [|G]; [assumption|exfalso]. assert (p * p <= r * r) by (apply Z.mul_le_mono_nonneg; lia). lia. }
  destruct (I2 r Pr ltac:(lia)) as (e & Ie & Ee). destruct (I1 e Ie) as ((r' & k & A1 & A2 & A3 & A4 & A5 & A6) & A7).
  subst e. cbn [snd] in Ee. assert (r' = r) by lia. subst r'. unfold val in A7. cbn [fst] in A7.
  assert (m < k) by (apply (Z.mul_lt_mono_pos_l r); lia). destruct (A6 m (proj2 Cr) ltac:(lia)); lia.
Qed.

Lemma add_ok c q t p heap primes : c6 c -> 5 <= c <= q -> hinv c q t p heap -> below c primes ->
  exists more, add_loop q (primes, c, dstep c) = Ret (primes ++ more, q, dstep q) /\ below q (primes ++ more) /\ forall y, In y more -> c <= y.
Proof.
  intros Hc Lc H B.
  assert (Cq : c6 q) by apply H.
  assert (G : exists s, add_loop q (primes, c, dstep c) = Ret s /\ exists more, s = (primes ++ more, q, dstep q) /\ below q (primes ++ more) /\ forall y, In y more -> c <= y).
  2:{ destruct G as (s & E & more & -> & A). exists more. auto. }
  unfold add_loop. apply (run_rule (add_step q) (fun s => exists more x, s = (primes ++ more, x, dstep x) /\ c6 x /\ c <= x <= q /\ below x (primes ++ more) /\ forall y, In y more -> c <= y)
    (fun s => Z.max 0 (q - snd (fst s))) (fun r => exists s, r = Ret s /\ exists more, s = (primes ++ more, q, dstep q) /\ below q (primes ++ more) /\ forall y, In y more -> c <= y)).
  - intros s (more & x & -> & Cx & Bx & Bl & Ml). unfold add_step. destruct (Z.ltb_spec x q) as [L|L].
    + destruct (c6_next x Cx) as (N1 & N2 & N3 & N4). pose proof (candidate_prime c q t p heap x H Cx ltac:(lia) ltac:(lia)) as Px. cbn [fst snd]. split; [|lia].
      exists (more ++ [x]), (x + dstep x). rewrite N2, app_assoc. split; [reflexivity|]. split; [exact N1|]. split; [specialize (N4 q Cq L); lia|].
      split; [apply below_next_prime; [exact Cx|lia|exact Bl|exact Px]|].
      intros y I. apply in_app_iff in I. destruct I as [I|[<-|[]]]; [apply Ml, I|lia].
    + assert (x = q) by lia. subst x. eexists. split; [reflexivity|]. exists more. auto.
  - exists [], c. rewrite app_nil_r. split; [reflexivity|]. split; [exact Hc|]. split; [lia|]. split; [exact B|intros y []].
  - cbn [fst snd]. apply bits_spec.
Qed.
