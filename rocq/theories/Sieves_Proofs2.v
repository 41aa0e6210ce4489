(** * Proofs about prime_range *)
From Coq Require Import ZArith List Bool Lia Znumtheory Sorted.
From Verif Require Import Base Lists Py NT PyFloat_Model PyFloat_Proofs Core_Model PrimeList_Data
  PrimeList_Proofs Primes_Spec Sieves_Model Sieves_Proofs.
Import ListNotations.
Open Scope Z_scope.

(** [offs] is a dictionary giving for each odd prime [p] the first index [j] of
    the block starting at [start] whose number [start+1+2j] is divisible by [p]. *)
Definition offs_ok (ps : list Z) (start : Z) (offs : list (Z * Z)) : Prop :=
  map fst offs = ps /\
  forall p o, In (p, o) offs -> 0 <= o < p /\ (p | start + 1 + 2 * o).

Lemma odd_half_divide p x : prime p -> p <> 2 -> (p | 2 * x) -> (p | x).
Proof.
  intros Hp H2 D. apply prime_mult in D; [|exact Hp]. destruct D as [D|D]; [|exact D].
  pose proof (prime_ge2 p Hp). destruct (prime_divisors_cases 2 p prime_2 D); lia.
Qed.

Lemma seg_strike_ok B ps start : 0 <= B -> (forall p, In p ps -> prime p /\ p <> 2) ->
  forall offs block, offs_ok ps start offs -> Z.of_nat (length block) = B ->
  exists block' offs', seg_strike B offs block = Ret (block', offs') /\
    Z.of_nat (length block') = B /\ offs_ok ps (start + 2 * B) offs' /\
    forall j, 0 <= j < B -> (getb block' j = true <->
      getb block j = true /\ forall p, In p ps -> ~ (p | start + 1 + 2 * j)).
Proof.
  intros HB. induction ps as [|p ps IH]; intros Hps offs block [Hm Ho] L.
  - destruct offs; [|discriminate]. exists block, []. split; [reflexivity|]. split; [exact L|]. split; [split; [reflexivity|intros p o []]|].
    intros j Hj. cbn [In]. tauto.
  - destruct offs as [|[p' o] offs]; [discriminate|]. cbn [map fst] in Hm.
    assert (p' = p) by congruence. subst p'. assert (Hm' : map fst offs = ps) by congruence.
    destruct (Hps p (or_introl eq_refl)) as [Hp Hp2]. pose proof (prime_ge2 p Hp).
    destruct (Ho p o (or_introl eq_refl)) as [Bo Do].
    cbn [seg_strike].
    destruct (strike_spec B o p block ltac:(lia) ltac:(lia) L) as (b1 & E1 & L1 & S1).
    unfold strike, count_expr in E1. rewrite E1. cbn [bind].
    destruct (IH ltac:(intros; apply Hps; right; assumption) offs b1) as (b2 & offs2 & E2 & L2 & O2 & S2).
    { split; [exact Hm'|]. intros; apply Ho; right; assumption. }
    { exact L1. }
    rewrite E2. cbn [bind]. exists b2, ((p, (- (B - o)) mod p) :: offs2).
    split; [reflexivity|]. split; [exact L2|]. split.
    + destruct O2 as [M2 O2]. split; [cbn; f_equal; exact M2|].
      intros q u [E|Hin]; [|apply O2; exact Hin]. injection E as <- <-.
      split; [apply Z.mod_pos_bound; lia|].
      replace (- (B - o)) with (o - B) by ring.
      rewrite Z.mod_eq by lia.
      replace (start + 2 * B + 1 + 2 * (o - B - p * ((o - B) / p)))
        with (start + 1 + 2 * o + p * (- 2 * ((o - B) / p))) by ring.
      apply Z.divide_add_r; [exact Do|apply Z.divide_factor_l].
    + intros j Hj. rewrite S2, S1 by exact Hj.
      assert (Q : (o <= j /\ (p | j - o)) <-> (p | start + 1 + 2 * j)).
      { split.
        - intros [_ D]. replace (start + 1 + 2 * j) with (start + 1 + 2 * o + (j - o) * 2) by ring.
          apply Z.divide_add_r; [exact Do|apply Z.divide_mul_l; exact D].
        - intros D. assert (D2 : (p | j - o)).
          { apply odd_half_divide; auto.
            replace (2 * (j - o)) with ((start + 1 + 2 * j) - (start + 1 + 2 * o)) by ring.
            apply Z.divide_sub_r; assumption. }
          split; [|exact D2]. destruct D2 as [c Hc]. destruct (Z_lt_le_dec c 0); nia. }
      rewrite Q. cbn [In]. split.
      * intros [[H1 H2] H3]. split; [exact H1|]. intros q [<-|Hq]; auto.
      * intros [H1 H2]. split; [split; [exact H1|apply H2; left; reflexivity]|].
        intros q Hq. apply H2. right. exact Hq.
Qed.

(** [l] is the increasing list of the primes in [[a, b)]. *)
Definition primes_in (a b : Z) (l : list Z) : Prop :=
  StronglySorted Z.lt l /\ forall p, In p l <-> prime p /\ a <= p < b.

Section Interval.
Variables (a b r : Z) (ps : list Z).
Hypothesis Har : r < a.
Hypothesis Hr : 3 <= r.
Hypothesis Hrb : b <= (r + 1) * (r + 1).
Hypothesis Hps : forall p, In p ps <-> prime p /\ p <> 2 /\ p <= r.

Lemma unstruck_prime m : a <= m < b -> m mod 2 <> 0 ->
  ((forall p, In p ps -> ~ (p | m)) <-> prime m).
Proof.
  intros Hm Hodd. rewrite (prime_sqrt m) by lia. split.
  - intros H q Hq Hqq. pose proof (prime_ge2 q Hq). destruct (Z.eq_dec q 2) as [->|N].
    + intros D. apply Hodd, Z.mod_divide; [lia|exact D].
    + apply H, Hps. split; [exact Hq|]. split; [exact N|]. nia.
  - intros H p Hp D. apply Hps in Hp as (Hp & N & L). pose proof (prime_ge2 p Hp).
    destruct (Z_le_gt_dec (p * p) m) as [Hle|Hgt]; [exact (H p Hp Hle D)|].
    assert (Pm : prime m) by (apply prime_sqrt; [lia|exact H]).
    destruct (prime_divisors_cases m p Pm D); lia.
Qed.

Lemma seg_loop_ok aa B cnt : 1 <= B -> aa mod 2 = 0 -> 0 <= cnt ->
  aa <= a -> aa <= a <= aa + 1 ->
  forall offs, offs_ok ps aa offs ->
  exists offs' out, foldM (seg_step a b B) (map (fun i => aa + 2 * B * Z.of_nat i) (seq 0 (Z.to_nat cnt))) (offs, []) =
    Ret (offs', out) /\ offs_ok ps (aa + 2 * B * cnt) offs' /\
    primes_in a (Z.min b (aa + 2 * B * cnt)) out.
Proof.
  intros HB Haa Hcnt Ha1 Ha2 offs Ho. revert Hcnt. intros Hc. pattern cnt. apply natlike_ind; [| |exact Hc].
  - exists offs, []. cbn. split; [reflexivity|]. rewrite Z.mul_0_r, Z.add_0_r. split; [exact Ho|].
    split; [constructor|]. intros p. cbn. lia.
  - clear cnt Hc. intros i Hi (offs1 & out & E & O1 & S1 & P1).
    rewrite Z2Nat.inj_succ by lia. rewrite seq_S, map_app, foldM_app, E. cbn [bind map foldM Nat.add].
    rewrite Z2Nat.id by lia. set (start := aa + 2 * B * i) in *.
    assert (Hstart : start mod 2 = 0).
    { unfold start. replace (2 * B * i) with ((B * i) * 2) by ring. rewrite Z_mod_plus_full. exact Haa. }
    unfold seg_step.
    destruct (seg_strike_ok B ps start ltac:(lia)) with (offs := offs1) (block := ones B)
      as (b2 & offs2 & E2 & L2 & O2 & S2).
    { intros p Hp. apply Hps in Hp. tauto. }
    { exact O1. }
    { apply ones_length. lia. }
    rewrite E2. cbn [bind].
    rewrite (filterM_ret _ (getb b2)).
    2:{ intros x Hx. rewrite zrange_In in Hx. apply pyget_getb. lia. }
    cbn [bind]. eexists _, _. split; [reflexivity|].
    assert (Hend : aa + 2 * B * Z.succ i = start + 2 * B) by (unfold start; ring).
    rewrite Hend. split; [exact O2|].
    set (new := filter _ (map _ _)).
    assert (New : forall m, In m new <-> prime m /\ (a <= m < b /\ start <= m < start + 2 * B)).
    { intros m. unfold new. rewrite filter_In, in_map_iff, andb_true_iff, Z.leb_le, Z.ltb_lt. split.
      - intros [(j & <- & Hj) Hm]. apply filter_In in Hj as [Hj Ej]. rewrite zrange_In in Hj.
        apply S2 in Ej; [|lia]. destruct Ej as [_ Ej].
        split; [|lia]. apply unstruck_prime; [lia| |].
        + clear - Hstart. Z.div_mod_to_equations. lia.
        + intros p Hp. replace (start + 2 * j + 1) with (start + 1 + 2 * j) by ring. apply Ej, Hp.
      - intros (Hm & H1 & H2). split; [|lia].
        assert (Hodd : m mod 2 <> 0).
        { intros X. apply Z.mod_divide in X; [|lia]. apply prime_even in X; [lia|exact Hm]. }
        exists ((m - start) / 2). split; [clear - Hodd Hstart; Z.div_mod_to_equations; lia|].
        assert (Hj : 0 <= (m - start) / 2 < B).
        { split; [apply Z.div_pos; lia|]. apply Z.div_lt_upper_bound; lia. }
        apply filter_In. rewrite zrange_In. split; [lia|]. apply S2; [lia|]. split; [apply ones_get; lia|].
        replace (start + 1 + 2 * ((m - start) / 2)) with m
          by (clear - Hodd Hstart; Z.div_mod_to_equations; lia).
        apply unstruck_prime; tauto. }
    split.
    + apply sorted_app; [exact S1| |].
      * unfold new. apply filter_sorted, map_sorted_lt; [intros; lia|]. apply filter_sorted, zrange_sorted.
      * intros x y Hx Hy. apply P1 in Hx. apply New in Hy. lia.
    + intros p. rewrite in_app_iff, P1, New.
      assert (aa <= start) by (unfold start; nia). split.
      * intros [H1|H1]; (split; [tauto|lia]).
      * intros [H1 H2]. destruct (Z_lt_le_dec p start); [left|right]; (split; [tauto|lia]).
Qed.

Lemma sieve_interval_ok : a < b -> exists l, sieve_interval a b r ps = Ret l /\ primes_in a b l.
Proof.
  intros Hab. unfold sieve_interval.
  set (aa := a - a mod 2). set (bb := b + b mod 2).
  assert (A1 : aa <= a <= aa + 1) by (unfold aa; clear; Z.div_mod_to_equations; lia).
  assert (A2 : aa mod 2 = 0) by (unfold aa; clear; Z.div_mod_to_equations; lia).
  assert (B1 : b <= bb <= b + 1) by (unfold bb; clear; Z.div_mod_to_equations; lia).
  assert (B2 : bb mod 2 = 0) by (unfold bb; clear; Z.div_mod_to_equations; lia).
  set (B := Z.min ((bb - aa) / 2) (8 * r)).
  assert (HB : 1 <= B).
  { assert (1 <= (bb - aa) / 2) by (apply Z.div_le_lower_bound; clear - A1 A2 B1 B2 Hab; Z.div_mod_to_equations; lia).
    unfold B. lia. }
  destruct (Z.eqb_spec B 0); [lia|].
  unfold zrange_step. set (cnt := (bb - aa + 2 * B - 1) / (2 * B)).
  assert (Hcnt : 0 <= cnt) by (apply Z.div_pos; lia).
  assert (Hcov : bb <= aa + 2 * B * cnt).
  { unfold cnt. pose proof (Z.div_mod (bb - aa + 2 * B - 1) (2 * B) ltac:(lia)).
    pose proof (Z.mod_pos_bound (bb - aa + 2 * B - 1) (2 * B) ltac:(lia)). lia. }
  destruct (seg_loop_ok aa B cnt HB A2 Hcnt ltac:(lia) A1
    (map (fun p => (p, (- (aa + 1 + p)) / 2 mod p)) ps)) as (offs' & out & E & _ & P).
  { split; [rewrite map_map; cbn; apply map_id|]. intros p o Hin.
    apply in_map_iff in Hin as (q & Eq & Hq). injection Eq as <- <-.
    apply Hps in Hq as (Hq & N & _). pose proof (prime_ge2 q Hq).
    split; [apply Z.mod_pos_bound; lia|].
    assert (Hodd : q mod 2 <> 0).
    { intros X. apply Z.mod_divide in X; [|lia]. apply prime_even in X; [lia|exact Hq]. }
    rewrite Z.mod_eq by lia. set (h := (- (aa + 1 + q)) / 2).
    assert (2 * h = - (aa + 1 + q)) by (unfold h; clear - A2 Hodd; Z.div_mod_to_equations; lia).
    exists (-1 - 2 * (h / q)). lia. }
  rewrite E. cbn [bind]. exists out. split; [reflexivity|].
  rewrite Z.min_l in P by lia. exact P.
Qed.
End Interval.

Lemma primes_upto_tl r l : 2 <= r -> primes_upto r l ->
  forall p, In p (tl l) <-> prime p /\ p <> 2 /\ p <= r.
Proof.
  intros Hr [S H]. destruct l as [|x l].
  - exfalso. apply (proj2 (H 2)). split; [exact prime_2|exact Hr].
  - assert (x = 2).
    { inversion S as [|? ? S1 S2]; subst. rewrite Forall_forall in S2.
      assert (In 2 (x :: l)) as [E|E] by (apply H; split; [exact prime_2|exact Hr]); [exact E|].
      specialize (S2 2 E). pose proof (proj1 (H x) (or_introl eq_refl)) as [Hx _].
      apply prime_ge2 in Hx. lia. }
    subst x. inversion S as [|? ? S1 S2]; subst. rewrite Forall_forall in S2. cbn [tl]. intros p. split.
    + intros Hp. specialize (S2 p Hp). pose proof (proj1 (H p) (or_intror Hp)). split; [tauto|lia].
    + intros (Hp & N & L). assert (In p (2 :: l)) as [E|E] by (apply H; tauto); [congruence|exact E].
Qed.

Lemma int_pow_half_loop b : 10 ^ 7 < b < 2 ^ 104 -> exists r, int_pow_half b = Ret r /\
  3 <= r < b - 1 /\ b <= (r + 1) * (r + 1).
Proof.
  intros Hb. destruct (int_pow_half_bounds b ltac:(lia)) as (r & E & B). exists r. split; [exact E|].
  assert (Hn : 10 ^ 7 < b) by lia. clear E Hb. change (10 ^ 7) with 10000000 in Hn.
  pose proof (Z.sqrt_spec b ltac:(lia)) as S. cbv zeta in S. set (s := Z.sqrt b) in *. clearbody s.
  assert (5 <= s) by nia. split; [nia|].
  assert ((s + 1) * (s + 1) <= (r + 1) * (r + 1)) by (apply Z.mul_le_mono_nonneg; lia). lia.
Qed.

Lemma bisect_skipn l x : StronglySorted Z.lt l ->
  skipn (bisect l x) l = filter (fun y => x <? y) l.
Proof.
  induction l as [|y l IH]; intros H; [reflexivity|].
  inversion H as [|? ? H1 H2]; subst. cbn [bisect filter].
  destruct (Z.leb_spec y x) as [Hlt|Hge].
  - cbn [skipn]. rewrite (proj2 (Z.ltb_ge x y)) by lia. apply IH, H1.
  - cbn [skipn]. rewrite (proj2 (Z.ltb_lt x y)) by lia. f_equal. symmetry. rewrite Forall_forall in H2.
    assert (H0 : forall z, In z l -> (x <? z) = true).
    { intros z Hz. apply Z.ltb_lt. specialize (H2 z Hz). lia. }
    clear - H0. induction l as [|z l IH]; [reflexivity|]. cbn [filter].
    rewrite H0 by (left; reflexivity). f_equal. apply IH. intros; apply H0; right; assumption.
Qed.

Lemma prime_range_small a b : b <= 10 ^ 7 ->
  exists l, prime_range a (Some b) = Ret l /\ primes_between a b l.
Proof.
  intros Hb. unfold prime_range. destruct (Z.leb_spec b (10 ^ 7)); [|lia].
  destruct (primes_correct b) as (ps & -> & S & P). cbn [bind]. eexists. split; [reflexivity|].
  rewrite bisect_left_skipn by exact S. split; [apply filter_sorted, S|].
  intros p. rewrite filter_In, P, Z.leb_le. split; intros H1.
  - destruct (Z.ltb_spec a 2); (split; [tauto|lia]).
  - destruct H1 as [H1 H2]. pose proof (prime_ge2 p H1). split; [split; [tauto|lia]|]. destruct (Z.ltb_spec a 2); lia.
Qed.

Lemma prime_range_large a b : 10 ^ 7 < b < 2 ^ 104 -> a < b ->
  exists l, prime_range a (Some b) = Ret l /\
    ((Z.sqrt b + 1 < a -> primes_in a b l) /\
     (a <= Z.sqrt b -> primes_in (Z.max 2 a + 1) b l)) /\
    (primes_in a b l \/ primes_in (Z.max 2 a + 1) b l).
Proof.
  intros Hb Hab. unfold prime_range.
  set (a' := if a <? 2 then 2 else a).
  assert (Ha' : a' = Z.max 2 a) by (unfold a'; destruct (Z.ltb_spec a 2); lia).
  assert (Hb' : 10 ^ 7 < b) by lia. change (10 ^ 7) with 10000000 in Hb'.
  destruct (Z.leb_spec b (10 ^ 7)); [lia|].
  destruct (int_pow_half_bounds b ltac:(lia)) as (r0 & E0 & B0).
  destruct (int_pow_half_loop b Hb) as (r & E & R1 & R2). assert (r0 = r) by congruence. subst r0.
  rewrite E. cbn [bind].
  destruct (primes_correct r) as (ps & -> & S & P). cbn [bind].
  pose proof (primes_upto_tl r ps ltac:(lia) (conj S P)) as T.
  assert (X : 2 <= Z.sqrt b) by (apply Z.sqrt_le_square; lia).
  destruct (Z.leb_spec a' r) as [H1|H1].
  - destruct (sieve_interval_ok (r + 1) b r (tl ps)) as (l & -> & SL & PL); try lia; try exact T.
    cbn [bind]. eexists. split; [reflexivity|].
    rewrite bisect_skipn by exact S.
    assert (G : primes_in (Z.max 2 a + 1) b (filter (fun y => a' <? y) ps ++ l)).
    { split.
      - apply sorted_app; [apply filter_sorted, S|exact SL|].
        intros x y Hx Hy. apply filter_In in Hx as [Hx _]. apply P in Hx. apply PL in Hy. lia.
      - intros p. rewrite in_app_iff, filter_In, P, PL, Z.ltb_lt. split.
        + intros [[[H2 H3] H4]|[H2 H3]]; (split; [exact H2|lia]).
        + intros [H2 H3]. destruct (Z_le_gt_dec p r); [left|right]; (split; [|lia]); auto. }
    split; [|right; exact G]. split; [lia|intros _; exact G].
  - destruct (sieve_interval_ok a' b r (tl ps)) as (l & -> & SL & PL); try lia; try exact T.
    exists l. split; [reflexivity|].
    assert (a' = a) by lia. rewrite H0 in *. split; [|left; split; assumption].
    split; [intros _; split; assumption|lia].
Qed.

Lemma firstn_primes m l n : primes_upto m l -> 0 <= n <= Z.of_nat (length l) ->
  first_primes n (firstn (Z.to_nat n) l).
Proof.
  intros [S P] Hn. pose proof (firstn_skipn (Z.to_nat n) l) as E.
  set (u := firstn (Z.to_nat n) l) in *. set (v := skipn (Z.to_nat n) l) in *.
  assert (Hu : forall p, In p u -> In p l) by (intros p Hp; rewrite <- E; apply in_or_app; left; exact Hp).
  split; [unfold u; rewrite firstn_length; lia|].
  assert (Suv : StronglySorted Z.lt u /\ forall x y, In x u -> In y v -> x < y).
  { rewrite <- E in S. clear - S. induction u as [|x u IH]; [split; [constructor|intros ? ? []]|].
    cbn in S. inversion S as [|? ? S1 S2]; subst. rewrite Forall_forall in S2.
    destruct (IH S1) as [A B]. split.
    - constructor; [exact A|]. apply Forall_forall. intros y Hy. apply S2, in_or_app. left. exact Hy.
    - intros a b [<-|Ha] Hb; [|apply B; assumption]. apply S2, in_or_app. right. exact Hb. }
  destruct Suv as [Su B]. split; [exact Su|]. split.
  - intros p Hp. apply Hu, P in Hp. tauto.
  - intros p q Hp Hq Hle. apply Hu in Hp as Hp'. apply P in Hp' as [_ Hp'].
    assert (Hin : In q l) by (apply P; split; [exact Hq|lia]).
    rewrite <- E in Hin. apply in_app_or in Hin as [Hin|Hin]; [exact Hin|].
    specialize (B p q Hp Hin). lia.
Qed.

Lemma primes_first_n_table fb n : 0 <= n < 78498 ->
  exists l, primes_first_n fb n = Ret l /\ first_primes n l.
Proof.
  intros Hn. unfold primes_first_n. rewrite PRIME_LIST_length.
  destruct (Z.leb_spec n 0) as [H0|H0].
  - assert (n = 0) by lia. subst n. exists []. split; [reflexivity|].
    split; [reflexivity|]. split; [constructor|]. split; intros p; intros; contradiction.
  - destruct (Z.ltb_spec n 78498); [|lia]. eexists. split; [reflexivity|].
    apply firstn_primes with 1000000; [|rewrite PRIME_LIST_length; lia].
    split; [apply PRIME_LIST_sorted|apply PRIME_LIST_In].
Qed.

(** Beyond the table: correct exactly when the float estimate reaches the n-th prime. *)
Lemma primes_first_n_large fb n l : 78498 <= n -> primes_upto (fb n) l ->
  n <= Z.of_nat (length l) ->
  exists l', primes_first_n fb n = Ret l' /\ first_primes n l'.
Proof.
  intros Hn P L. unfold primes_first_n. rewrite PRIME_LIST_length.
  destruct (Z.leb_spec n 0); [lia|]. destruct (Z.ltb_spec n 78498); [lia|].
  destruct (eratosthenes2_correct (fb n)) as (l' & -> & P'). cbn [bind].
  pose proof (primes_upto_unique _ _ _ P P'). subst l'.
  eexists. split; [reflexivity|]. apply firstn_primes with (fb n); [exact P|lia].
Qed.
