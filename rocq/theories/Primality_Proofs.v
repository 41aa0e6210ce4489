(** * Proofs about trial division and the primality tests *)
From Coq Require Import ZArith List Bool Lia Znumtheory Sorted Zpow_facts.
From Verif Require Import Base Lists Py NT NT_Euler Core_Model Core_Props PrimeList_Data
  PrimeList_Proofs Sieves_Proofs TrialDiv_Model Primality_Model Primality_Spec.
Import ListNotations.
Open Scope Z_scope.

(** ** trial_division *)
Lemma td_table_ok n bound : forall l pre d0, PRIME_LIST = pre ++ l ->
  (forall q, In q pre -> ~ (q | n)) -> (pre <> [] -> d0 = last PRIME_LIST 0 \/ l <> []) ->
  match td_table n bound l d0 with
  | inr r => trial_result n bound r
  | inl d => (forall q, In q PRIME_LIST -> ~ (q | n)) /\ d = last (d0 :: l) 0
  end.
Proof.
  induction l as [|d l IH]; intros pre d0 E Hpre Hd; cbn [td_table].
  - split; [|reflexivity]. rewrite E, app_nil_r. exact Hpre.
  - pose proof PRIME_LIST_sorted as HS.
    assert (Hd1 : In d PRIME_LIST) by (rewrite E; apply in_or_app; right; left; reflexivity).
    apply PRIME_LIST_In in Hd1 as Hd2. destruct Hd2 as [Pd Ld].
    assert (Below : forall q, prime q -> q < d -> In q pre).
    { intros q Hq Hlt. assert (In q PRIME_LIST) as HI by (apply PRIME_LIST_In; split; [exact Hq|lia]).
      rewrite E in HI. apply in_app_or in HI as [HI|[HI|HI]]; [exact HI|lia|].
      exfalso. rewrite E in HS. clear - HS HI Hlt.
      induction pre as [|x pre IH]; cbn in HS; inversion HS as [|? ? H1 H2]; subst.
      - rewrite Forall_forall in H2. specialize (H2 q HI). lia.
      - apply IH, H1. }
    destruct (Z.ltb_spec bound d) as [H1|H1].
    + right. split; [reflexivity|]. intros q Hq Hle. apply Hpre, Below; [exact Hq|lia].
    + pose proof (prime_ge2 d Pd). destruct (Z.eqb_spec (n mod d) 0) as [H2|H2].
      * left. split; [|exact H1]. split; [exact Pd|]. split; [apply Z.mod_divide; lia|].
        intros q Hq D. destruct (Z_lt_le_dec q d) as [L|L]; [|exact L].
        exfalso. exact (Hpre q (Below q Hq L) D).
      * specialize (IH (pre ++ [d]) d). rewrite <- app_assoc in IH. cbn [app] in IH.
        specialize (IH E).
        assert (A : forall q, In q (pre ++ [d]) -> ~ (q | n)).
        { intros q Hq. apply in_app_or in Hq as [Hq|[<-|[]]]; [apply Hpre, Hq|].
          intros D. apply H2, Z.mod_divide; [lia|exact D]. }
        specialize (IH A). destruct (td_table n bound l d).
        -- destruct IH as [I1 I2].
           { intros _. destruct l; [left|right; discriminate].
             rewrite E. rewrite last_last. reflexivity. }
           split; [exact I1|]. exact I2.
        -- apply IH. intros _. destruct l; [left|right; discriminate].
           rewrite E. rewrite last_last. reflexivity.
Qed.

Definition in_wheel (r : Z) : Prop :=
  r = 1 \/ r = 7 \/ r = 11 \/ r = 13 \/ r = 17 \/ r = 19 \/ r = 23 \/ r = 29.

Lemma wheel_ok d : in_wheel (d mod 30) -> exists o, wheel_offset (d mod 30) = Ret o /\ 0 < o <= 6 /\
  in_wheel ((d + o) mod 30) /\
  forall x, d < x < d + o -> (2 | x) \/ (3 | x) \/ (5 | x).
Proof.
  intros H. pose proof (Z.div_mod d 30 ltac:(lia)) as E.
  set (c := d / 30) in *. set (r := d mod 30) in *. clearbody c r. subst d.
  assert (W : forall o s, r + o = s \/ r + o = s + 30 -> 0 <= s < 30 -> (30 * c + r + o) mod 30 = s).
  { intros o s Hs Hb. destruct Hs as [Hs|Hs].
    - replace (30 * c + r + o) with (s + c * 30) by lia. rewrite Z_mod_plus_full. apply Z.mod_small; lia.
    - replace (30 * c + r + o) with (s + (c + 1) * 30) by lia. rewrite Z_mod_plus_full. apply Z.mod_small; lia. }
  assert (D2 : forall k, 0 <= k -> k mod 2 = 0 -> (2 | 30 * c + k)).
  { intros k Hk Hm. exists (15 * c + k / 2). Z.div_mod_to_equations. lia. }
  assert (D3 : forall k, 0 <= k -> k mod 3 = 0 -> (3 | 30 * c + k)).
  { intros k Hk Hm. exists (10 * c + k / 3). Z.div_mod_to_equations. lia. }
  assert (D5 : forall k, 0 <= k -> k mod 5 = 0 -> (5 | 30 * c + k)).
  { intros k Hk Hm. exists (6 * c + k / 5). Z.div_mod_to_equations. lia. }
  destruct H as [-> |[-> |[-> |[-> |[-> |[-> |[-> | ->]]]]]]]; unfold wheel_offset; cbn [Z.eqb Pos.eqb];
  [exists 6|exists 4|exists 2|exists 4|exists 2|exists 4|exists 6|exists 2];
  (split; [reflexivity|]; split; [lia|]; split;
   [unfold in_wheel; first [rewrite (W _ 7) by lia; lia|rewrite (W _ 11) by lia; lia|rewrite (W _ 13) by lia; lia
     |rewrite (W _ 17) by lia; lia|rewrite (W _ 19) by lia; lia|rewrite (W _ 23) by lia; lia|rewrite (W _ 29) by lia; lia
     |rewrite (W _ 1) by lia; lia]
   |intros x Hx]).
  all: assert (exists k, x = 30 * c + k) as [k ->] by (exists (x - 30 * c); lia).
  all: assert (Hk : k = 2 \/ k = 3 \/ k = 4 \/ k = 5 \/ k = 6 \/ k = 8 \/ k = 9 \/ k = 10 \/ k = 12 \/
     k = 14 \/ k = 15 \/ k = 16 \/ k = 18 \/ k = 20 \/ k = 21 \/ k = 22 \/ k = 24 \/ k = 25 \/
     k = 26 \/ k = 27 \/ k = 28 \/ k = 30) by lia.
  all: repeat (destruct Hk as [-> |Hk]); try (rewrite Hk).
  all: first [left; apply D2; [lia|reflexivity] | right; left; apply D3; [lia|reflexivity]
             | right; right; apply D5; [lia|reflexivity]].
Qed.

Lemma least_divisor_prime n d : 2 <= d -> (d | n) -> (forall q, prime q -> q < d -> ~ (q | n)) ->
  least_prime_factor n d.
Proof.
  intros H2 D H. split; [|split; [exact D|]].
  - apply prime_sqrt; [exact H2|]. intros q Hq Hqq Dq. pose proof (prime_ge2 q Hq).
    apply (H q Hq); [nia|]. eapply Z.divide_trans; eauto.
  - intros q Hq Dq. destruct (Z_lt_le_dec q d) as [L|L]; [|exact L]. exfalso. exact (H q Hq L Dq).
Qed.

Definition wheel_inv (n d : Z) : Prop :=
  7 <= d /\ in_wheel (d mod 30) /\ forall q, prime q -> q < d -> ~ (q | n).

Lemma wheel_advance n d o : wheel_inv n d -> ~ (d | n) -> wheel_offset (d mod 30) = Ret o ->
  0 < o /\ wheel_inv n (d + o).
Proof.
  intros (H7 & W & H) Hn Ho. destruct (wheel_ok d W) as (o' & E & B & W' & G).
  assert (o' = o) by congruence. subst o'. split; [lia|]. split; [lia|]. split; [exact W'|].
  intros q Hq Hlt D. destruct (Z_lt_le_dec q d) as [L|L]; [exact (H q Hq L D)|].
  destruct (Z.eq_dec q d) as [->|N]; [contradiction|].
  destruct (G q ltac:(lia)) as [X|[X|X]]; (destruct (prime_divisors_cases q _ Hq X); lia).
Qed.

Lemma td_wheel n bound d : wheel_inv n d ->
  exists r, run (td_step n bound) (bits bound) d = Ret r /\ trial_result n bound r.
Proof.
  intros I.
  apply (run_rule (td_step n bound) (wheel_inv n) (fun d => Z.max 0 (bound + 1 - d))
     (fun x => exists r, x = Ret r /\ trial_result n bound r)).
  - clear d I. intros d I. pose proof I as (H7 & W & H). unfold td_step.
    destruct (Z.leb_spec d bound) as [L|L].
    + destruct (Z.eqb_spec (n mod d) 0) as [E|E].
      * exists d. split; [reflexivity|]. left. split; [|exact L].
        apply least_divisor_prime; [lia| |exact H]. apply Z.mod_divide; lia.
      * destruct (wheel_ok d W) as (o & Eo & _). rewrite Eo.
        assert (N : ~ (d | n)) by (intros D; apply E, Z.mod_divide; [lia|exact D]).
        destruct (wheel_advance n d o I N Eo) as [Ho I']. split; [exact I'|]. lia.
    + exists n. split; [reflexivity|]. right. split; [reflexivity|].
      intros q Hq Hle. apply H; [exact Hq|lia].
  - exact I.
  - destruct I as (H7 & _). pose proof (bits_spec bound).
    assert (0 < 2 ^ Z.of_nat (bits bound)) by (apply Z.pow_pos_nonneg; lia). lia.
Qed.

Lemma PRIME_LIST_ne : PRIME_LIST <> [].
Proof. intros E. pose proof PRIME_LIST_last as H. rewrite E in H. discriminate. Qed.

Lemma trial_bounded n bound : exists r, trial_division n (Some bound) = Ret r /\ trial_result n bound r.
Proof.
  unfold trial_division. cbn [bind].
  pose proof (td_table_ok n bound PRIME_LIST [] 0 eq_refl ltac:(intros ? []) ltac:(congruence)) as H.
  destruct (td_table n bound PRIME_LIST 0) as [d|r].
  - destruct H as [H1 H2].
    assert (Ed : d = 999983).
    { rewrite H2. pose proof PRIME_LIST_last. pose proof PRIME_LIST_ne. destruct PRIME_LIST; [congruence|]. assumption. }
    clear H2. subst d. cbn [Z.modulo]. change (999983 mod 30) with 23. cbn [wheel_offset Z.eqb Pos.eqb bind].
    apply td_wheel. split; [lia|]. split; [unfold in_wheel; change ((999983 + 6) mod 30) with 29; lia|].
    intros q Hq Hlt. apply H1, PRIME_LIST_In. split; [exact Hq|]. lia.
  - exists r. split; [reflexivity|exact H].
Qed.

Lemma trial_unbounded n : 2 <= n -> exists r, trial_division n None = Ret r /\ least_prime_factor n r.
Proof.
  intros Hn. destruct (isqrt_loop n ltac:(lia)) as (s & E & S0 & S1 & _).
  destruct (trial_bounded n (s + 1)) as (r & Er & T).
  exists r. split; [unfold trial_division in *; rewrite E; exact Er|].
  destruct T as [[T _]|[-> T]]; [exact T|].
  assert (P : prime n).
  { apply prime_sqrt; [exact Hn|]. intros q Hq Hqq. apply T; [exact Hq|]. pose proof (prime_ge2 q Hq). nia. }
  split; [exact P|]. split; [apply Z.divide_refl|]. intros q Hq D.
  pose proof (prime_ge2 q Hq). destruct (prime_divisors_cases n q P D); lia.
Qed.

(** ** miller_rabin *)
Lemma split2_ok m : 1 <= m -> exists s t, run split2_step (bits m) (0, m) = Ret (s, t) /\
  0 <= s /\ m = 2 ^ s * t /\ t mod 2 = 1.
Proof.
  intros Hm.
  assert (G : exists st, run split2_step (bits m) (0, m) = Ret st /\ 0 <= fst st /\ m = 2 ^ fst st * snd st /\ snd st mod 2 = 1).
  { apply (run_rule split2_step (fun st => 0 <= fst st /\ m = 2 ^ fst st * snd st /\ 1 <= snd st) snd
      (fun x => exists st, x = Ret st /\ 0 <= fst st /\ m = 2 ^ fst st * snd st /\ snd st mod 2 = 1)).
    - intros [s t] (H1 & H2 & H3). cbn [fst snd] in *. unfold split2_step.
      pose proof (Z.mod_pos_bound t 2 ltac:(lia)) as B. pose proof (Z.div_mod t 2 ltac:(lia)) as D.
      destruct (Z.eqb_spec (t mod 2) 0) as [E|E]; cbn [fst snd].
      + split; [|lia]. split; [lia|]. split; [|lia].
        rewrite Z.pow_add_r, Z.pow_1_r by lia. rewrite H2 at 1. rewrite D at 1. rewrite E. ring.
      + exists (s, t). cbn [fst snd]. split; [reflexivity|]. split; [lia|]. split; [exact H2|lia].
    - cbn [fst snd]. rewrite Z.pow_0_r. lia.
    - cbn [snd]. apply bits_spec. }
  destruct G as ([s t] & E & H1 & H2 & H3). exists s, t. cbn [fst snd] in *. tauto.
Qed.

(** total: the test always answers *)
Lemma miller_rabin_total n a : 2 <= n -> exists b, miller_rabin n a = Ret b.
Proof.
  intros Hn. unfold miller_rabin.
  destruct (split2_ok (n - 1) ltac:(lia)) as (s & t & -> & _). cbn [bind].
  unfold pow3. destruct (Z.eqb_spec n 0); [lia|]. cbn [bind].
  destruct (_ || _); eauto.
Qed.

Lemma mr_loop_prime n : prime n -> forall k b, 0 <= b < n ->
  (b ^ (2 ^ Z.of_nat k)) mod n = n - 1 -> b <> n - 1 -> mr_loop n k b = true.
Proof.
  intros Hn. pose proof (prime_ge2 n Hn). induction k as [|k IH]; intros b Hb E Hne.
  - change (2 ^ Z.of_nat 0) with 1 in E. rewrite Z.pow_1_r, Z.mod_small in E by lia. lia.
  - cbn [mr_loop]. destruct (Z.eqb_spec ((b * b) mod n) (n - 1)) as [E2|E2]; [reflexivity|].
    apply IH; [apply Z.mod_pos_bound; lia| |exact E2].
    rewrite <- Zpower_mod by lia. rewrite <- Z.pow_2_r, <- Z.pow_mul_r by lia.
    rewrite <- Z.pow_succ_r, <- Nat2Z.inj_succ by lia. exact E.
Qed.

(** Along the squarings of [a^t] for a prime modulus: [1], or some term is [-1]. *)
Lemma squarings n x : prime n -> forall s, (x ^ (2 ^ Z.of_nat s)) mod n = 1 ->
  x mod n = 1 \/ exists i, (i < s)%nat /\ (x ^ (2 ^ Z.of_nat i)) mod n = n - 1.
Proof.
  intros Hn. induction s as [|s IH]; intros E.
  - left. change (2 ^ Z.of_nat 0) with 1 in E. rewrite Z.pow_1_r in E. exact E.
  - rewrite Nat2Z.inj_succ, Z.pow_succ_r, Z.mul_comm, Z.pow_mul_r, Z.pow_2_r in E by lia.
    apply sqrt1_prime in E; [|exact Hn]. destruct E as [E|E].
    + destruct (IH E) as [H|(i & Hi & H)]; [left; exact H|right; exists i; split; [lia|exact H]].
    + right. exists s. split; [lia|exact E].
Qed.

Lemma miller_rabin_prime p a : prime p -> 2 < p -> 1 <= a < p -> miller_rabin p a = Ret true.
Proof.
  intros Hp H2 Ha. unfold miller_rabin.
  destruct (split2_ok (p - 1) ltac:(lia)) as (s & t & -> & Hs & Em & Ht). cbn [bind].
  unfold pow3. destruct (Z.eqb_spec p 0); [lia|]. cbn [bind]. rewrite Zpow_mod_correct by lia.
  assert (Hpow2 : 0 < 2 ^ s) by (apply Z.pow_pos_nonneg; lia).
  assert (Ht0 : 0 < t) by nia.
  destruct (Z.eqb_spec (a ^ t mod p) 1) as [E1|E1]; [reflexivity|].
  destruct (Z.eqb_spec (a ^ t mod p) (p - 1)) as [E2|E2]; [reflexivity|]. cbn [orb]. f_equal.
  assert (F : ((a ^ t) ^ (2 ^ Z.of_nat (Z.to_nat s))) mod p = 1).
  { rewrite Z2Nat.id by lia. rewrite <- Z.pow_mul_r by lia. rewrite Z.mul_comm, <- Em.
    apply fermat; [exact Hp|]. intros D. apply Z.divide_pos_le in D; lia. }
  destruct (squarings p (a ^ t) Hp _ F) as [H|(i & Hi & H)]; [congruence|].
  assert (Hi0 : i <> O).
  { intros ->. change (2 ^ Z.of_nat 0) with 1 in H. rewrite Z.pow_1_r in H. congruence. }
  assert (G : forall k b, 0 <= b < p -> b <> p - 1 -> (i <= k)%nat ->
     (b ^ (2 ^ Z.of_nat i)) mod p = p - 1 -> mr_loop p k b = true).
  { clear E1 E2 F H. revert Hi0. clear Hi Ha Em Ht Ht0. induction i as [|i IH]; intros Hi0 k b Hb Hne Hk E; [lia|].
    destruct k as [|k]; [lia|]. cbn [mr_loop].
    destruct (Z.eqb_spec ((b * b) mod p) (p - 1)) as [E2|E2]; [reflexivity|].
    destruct (Nat.eq_dec i 0) as [->|Hi].
    - exfalso. apply E2. rewrite <- E. f_equal. change (2 ^ Z.of_nat 1) with 2. ring.
    - apply IH; [exact Hi|apply Z.mod_pos_bound; lia|exact E2|lia|].
      rewrite <- Zpower_mod by lia. rewrite <- Z.pow_2_r, <- Z.pow_mul_r by lia.
      rewrite <- Z.pow_succ_r, <- Nat2Z.inj_succ by lia. exact E. }
  apply G; [apply Z.mod_pos_bound; lia|exact E2|lia|].
  rewrite <- Zpower_mod by lia. exact H.
Qed.

Lemma allM_all {A} (f : A -> outcome bool) xs : (forall x, In x xs -> f x = Ret true) -> allM f xs = Ret true.
Proof.
  induction xs as [|x xs IH]; intros H; [reflexivity|]. cbn [allM].
  rewrite H by (left; reflexivity). cbn [bind]. apply IH. intros; apply H; right; assumption.
Qed.

Lemma allM_total {A} (f : A -> outcome bool) xs : (forall x, In x xs -> exists b, f x = Ret b) ->
  exists b, allM f xs = Ret b.
Proof.
  induction xs as [|x xs IH]; intros H; [exists true; reflexivity|]. cbn [allM].
  destruct (H x (or_introl eq_refl)) as (b & ->). cbn [bind]. destruct b; [|eauto].
  apply IH. intros; apply H; right; assumption.
Qed.

Lemma is_probable_prime_prime p : prime p -> is_probable_prime p = Ret true.
Proof.
  intros Hp. pose proof (prime_ge2 p Hp). unfold is_probable_prime. apply allM_all.
  intros a Ha. rewrite zrange_In in Ha. apply miller_rabin_prime; [exact Hp|lia|lia].
Qed.

Lemma is_probable_prime_total n : exists b, is_probable_prime n = Ret b.
Proof.
  unfold is_probable_prime. apply allM_total. intros a Ha. rewrite zrange_In in Ha.
  apply miller_rabin_total. lia.
Qed.

(** ** is_prime *)
Lemma bisect_left_lt l x : StronglySorted Z.lt l -> x <= last l 0 -> l <> [] ->
  (bisect_left l x < length l)%nat.
Proof.
  induction l as [|y l IH]; intros HS Hx Hne; [congruence|]. cbn [bisect_left length].
  destruct (Z.ltb_spec y x) as [H|H]; [|lia].
  inversion HS as [|? ? H1 H2]; subst. destruct l as [|z l].
  - cbn in Hx. lia.
  - specialize (IH H1 Hx ltac:(discriminate)). lia.
Qed.

Lemma is_prime_correct n : exists b, is_prime n = Ret b /\ (b = true <-> prime n).
Proof.
  unfold is_prime. destruct (Z.ltb_spec n 2) as [H2|H2].
  { exists false. split; [reflexivity|]. split; [discriminate|]. intros Hp. pose proof (prime_ge2 n Hp). lia. }
  destruct (Z.leb_spec n (last PRIME_LIST 0)) as [HL|HL].
  - pose proof (bisect_left_lt _ n PRIME_LIST_sorted HL PRIME_LIST_ne) as B.
    rewrite (pyget_nth _ _ 0) by lia. cbn [bind]. rewrite Nat2Z.id.
    eexists. split; [reflexivity|].
    pose proof (bisect_left_In PRIME_LIST n PRIME_LIST_sorted) as M.
    rewrite PRIME_LIST_last in HL.
    assert (Q : In n PRIME_LIST <-> prime n) by (rewrite PRIME_LIST_In; split; [tauto|intros; split; [assumption|lia]]).
    rewrite Z.eqb_eq, <- Q, <- M. rewrite (nth_error_nth' _ 0) by exact B. split; congruence.
  - destruct (is_probable_prime_total n) as (b & Eb). rewrite Eb. cbn [bind].
    destruct b; cbn [negb].
    + destruct (trial_unbounded n ltac:(lia)) as (r & -> & P & D & L). cbn [bind].
      eexists. split; [reflexivity|]. rewrite Z.eqb_eq. split; [intros <-; exact P|].
      intros Hn. destruct (prime_divisors_cases n r Hn D) as [E|E]; [pose proof (prime_ge2 r P); lia|pose proof (prime_ge2 r P); lia|exact E].
    + exists false. split; [reflexivity|]. split; [discriminate|]. intros Hp.
      apply is_probable_prime_prime in Hp. congruence.
Qed.

(** ** next_prime *)
Lemma zprod_zrange_bound n : 1 <= n -> 1 <= zprod (zrange 1 n) <= n ^ (n - 1).
Proof.
  intros Hn.
  assert (G : forall k, 0 <= k -> forall n, k + 1 <= n -> 1 <= zprod (zrange 1 (k + 1)) <= n ^ k).
  { intros k Hk. pattern k. apply natlike_ind; [| |exact Hk].
    - intros m Hm. rewrite zrange_nil, Z.pow_0_r by lia. rewrite zprod_nil. lia.
    - intros j Hj IH m Hm. rewrite zrange_snoc by lia. rewrite zprod_app, zprod_cons, zprod_nil.
      specialize (IH m ltac:(lia)). rewrite Z.add_1_r in IH. rewrite Z.pow_succ_r by lia. nia. }
  specialize (G (n - 1) ltac:(lia) n ltac:(lia)). replace (n - 1 + 1) with n in G by lia. exact G.
Qed.

Lemma zprod_In_divide x l : In x l -> (x | zprod l).
Proof.
  induction l as [|y l IH]; intros []; rewrite zprod_cons.
  - subst. apply Z.divide_factor_l.
  - apply Z.divide_mul_r, IH. assumption.
Qed.

(** Euclid. *)
Lemma prime_above n : 1 <= n -> exists p, prime p /\ n <= p <= n ^ (n - 1) + 1.
Proof.
  intros Hn. pose proof (zprod_zrange_bound n Hn) as B. set (P := zprod (zrange 1 n)) in *.
  destruct (least_prime_divisor (P + 1) ltac:(lia)) as (p & Hp & D & _). exists p.
  split; [exact Hp|]. pose proof (prime_ge2 p Hp). split.
  - destruct (Z_lt_le_dec p n) as [L|L]; [|exact L]. exfalso.
    assert (D2 : (p | P)) by (apply zprod_In_divide; rewrite zrange_In; lia).
    assert (D1 : (p | 1)). { replace 1 with (P + 1 - P) by ring. apply Z.divide_sub_r; assumption. }
    apply Z.divide_1_r_nonneg in D1; lia.
  - apply Z.divide_pos_le in D; lia.
Qed.

Lemma next_fuel_ok m p : 1 <= m -> p <= m ^ (m - 1) + 1 -> p - m < 2 ^ Z.of_nat (next_fuel m).
Proof.
  intros Hm Hp. unfold next_fuel. rewrite Z.abs_eq by lia. pose proof (Z.log2_nonneg m).
  rewrite Z2Nat.id by nia.
  assert (m ^ (m - 1) < 2 ^ (m * (Z.log2 m + 1) + 3)).
  { apply Z.le_lt_trans with ((2 ^ (Z.log2 m + 1)) ^ (m - 1)).
    - apply Z.pow_le_mono_l. split; [lia|]. pose proof (Z.log2_spec m ltac:(lia)). lia.
    - rewrite <- Z.pow_mul_r by lia. apply Z.pow_lt_mono_r; nia. }
  lia.
Qed.

Lemma next_run test m p : (forall n, exists b, test n = Ret b) ->
  (forall q, prime q -> 0 < q -> test q = Ret true) ->
  prime p -> m <= p -> (p - m) mod 2 = 0 -> p - m < 2 ^ Z.of_nat (next_fuel m) ->
  exists r, run (next_step test) (next_fuel m) m = Ret r /\ m <= r <= p /\ test r = Ret true /\
    (r - m) mod 2 = 0 /\ forall q, m <= q < r -> (q - m) mod 2 = 0 -> test q = Ret false.
Proof.
  intros T P Hp Hm Hpar Hf.
  apply (run_rule (next_step test)
    (fun x => m <= x <= p /\ (x - m) mod 2 = 0 /\ forall q, m <= q < x -> (q - m) mod 2 = 0 -> test q = Ret false)
    (fun x => p - x)
    (fun o => exists r, o = Ret r /\ m <= r <= p /\ test r = Ret true /\
      (r - m) mod 2 = 0 /\ forall q, m <= q < r -> (q - m) mod 2 = 0 -> test q = Ret false)).
  - intros x (H1 & H2 & H3). unfold next_step. destruct (T x) as (b & Eb). rewrite Eb. destruct b.
    + exists x. tauto.
    + assert (x <> p). { intros ->. rewrite P in Eb; [discriminate|exact Hp|]. pose proof (prime_ge2 p Hp). lia. }
      assert (x + 2 <= p) by (clear - H H1 H2 Hpar; Z.div_mod_to_equations; lia).
      split; [|lia]. split; [lia|]. split; [clear - H2; Z.div_mod_to_equations; lia|].
      intros q Hq Hq2. destruct (Z_lt_le_dec q x) as [L|L]; [apply H3; [lia|exact Hq2]|].
      assert (q = x) by (clear - Hq Hq2 H2 L; Z.div_mod_to_equations; lia). subst q. exact Eb.
  - rewrite Z.sub_diag. split; [lia|]. split; [reflexivity|]. intros; lia.
  - exact Hf.
Qed.

Lemma odd_prime_above m : 3 <= m -> exists p, prime p /\ m <= p <= m ^ (m - 1) + 1 /\ p mod 2 = 1.
Proof.
  intros Hm. destruct (prime_above m ltac:(lia)) as (p & Hp & B). exists p. split; [exact Hp|]. split; [exact B|].
  assert (p mod 2 <> 0). { intros X. apply Z.mod_divide in X; [|lia]. apply prime_even in X; [lia|exact Hp]. }
  clear - H. Z.div_mod_to_equations. lia.
Qed.

Lemma next_generic test n : 2 <= n -> (forall n, exists b, test n = Ret b) ->
  (forall q, prime q -> 0 < q -> test q = Ret true) ->
  let m := if (n + 1) mod 2 =? 0 then n + 1 + 1 else n + 1 in
  exists r, run (next_step test) (next_fuel m) m = Ret r /\ n < r /\ r mod 2 = 1 /\ test r = Ret true /\
    (forall q, n < q < r -> q mod 2 = 1 -> test q = Ret false) /\
    (forall q, prime q -> n < q -> r <= q).
Proof.
  intros Hn T P m.
  assert (Hm : m mod 2 = 1 /\ n + 1 <= m <= n + 2 /\ (m = n + 2 -> (n + 1) mod 2 = 0)).
  { unfold m. destruct (Z.eqb_spec ((n + 1) mod 2) 0) as [E|E]; (split; [clear - E; Z.div_mod_to_equations; lia|]); split; lia. }
  destruct Hm as (M1 & M2 & M3).
  destruct (odd_prime_above m ltac:(lia)) as (p & Hp & B & Op).
  destruct (next_run test m p T P Hp ltac:(lia)) as (r & E & R1 & R2 & R3 & R4).
  - clear - M1 Op. Z.div_mod_to_equations. lia.
  - apply next_fuel_ok; lia.
  - exists r. split; [exact E|]. split; [lia|]. split; [clear - M1 R3; Z.div_mod_to_equations; lia|].
    split; [exact R2|].
    assert (Below : forall q, n < q < r -> q mod 2 = 1 -> test q = Ret false).
    { intros q Hq Oq. apply R4; [|clear - M1 Oq; Z.div_mod_to_equations; lia].
      split; [|lia]. destruct (Z.eq_dec m (n + 2)) as [E2|E2]; [|lia].
      specialize (M3 E2). clear - M3 Hq Oq E2. Z.div_mod_to_equations. lia. }
    split; [exact Below|].
    intros q Hq Hlt. destruct (Z_lt_le_dec q r) as [L|L]; [|exact L]. exfalso.
    assert (q mod 2 = 1).
    { assert (q mod 2 <> 0). { intros X. apply Z.mod_divide in X; [|lia]. apply prime_even in X; [lia|exact Hq]. }
      clear - H. Z.div_mod_to_equations. lia. }
    pose proof (Below q ltac:(lia) H) as X. rewrite P in X; [discriminate|exact Hq|lia].
Qed.

Lemma next_prime_correct n : 1 <= n -> exists r, next_prime n = Ret r /\ least_prime_above n r.
Proof.
  intros Hn. unfold next_prime. destruct (Z.eqb_spec n 1) as [->|H1].
  { exists 2. split; [reflexivity|]. split; [exact prime_2|]. split; [lia|]. intros q Hq _. apply prime_ge2, Hq. }
  destruct (next_generic is_prime n ltac:(lia)) as (r & E & R1 & _ & R2 & _ & R3).
  - intros k. destruct (is_prime_correct k) as (b & E & _). eauto.
  - intros q Hq _. destruct (is_prime_correct q) as (b & E & B). rewrite E. f_equal. apply B, Hq.
  - exists r. split; [exact E|]. split; [|split; [exact R1|exact R3]].
    destruct (is_prime_correct r) as (b & E2 & B). apply B. congruence.
Qed.

Lemma next_prime_nonpos n : n <= 0 -> next_prime n = Ret 3.
Proof.
  intros Hn. unfold next_prime. destruct (Z.eqb_spec n 1); [lia|].
  set (m := if (n + 1) mod 2 =? 0 then n + 1 + 1 else n + 1).
  assert (Hm : m mod 2 = 1 /\ m <= 1).
  { unfold m. destruct (Z.eqb_spec ((n + 1) mod 2) 0) as [E|E]; (split; [clear - E; Z.div_mod_to_equations; lia|]); [|lia].
    clear - E Hn. Z.div_mod_to_equations. lia. }
  destruct Hm as (M1 & M2).
  destruct (next_run is_prime m 3) as (r & E & R1 & R2 & R3 & _).
  - intros k. destruct (is_prime_correct k) as (b & E & _). eauto.
  - intros q Hq _. destruct (is_prime_correct q) as (b & E & B). rewrite E. f_equal. apply B, Hq.
  - exact prime_3.
  - lia.
  - clear - M1. Z.div_mod_to_equations. lia.
  - unfold next_fuel. pose proof (Z.log2_nonneg (Z.abs m)).
    rewrite Z2Nat.id by nia.
    apply Z.le_lt_trans with (Z.abs m + 3); [lia|].
    apply Z.lt_le_trans with (2 ^ (Z.abs m + 3)).
    + apply Z.pow_gt_lin_r; lia.
    + apply Z.pow_le_mono_r; nia.
  - cbv zeta. fold m. rewrite E. f_equal.
    destruct (is_prime_correct r) as (b & E2 & B). rewrite R2 in E2. injection E2 as <-.
    assert (Hp : prime r) by (apply B; reflexivity). pose proof (prime_ge2 r Hp).
    assert (r mod 2 = 1) by (clear - M1 R3; Z.div_mod_to_equations; lia).
    assert (r <> 2) by (intros ->; discriminate). lia.
Qed.
