(** * Proofs about the prime sieves *)
From Coq Require Import ZArith List Bool Lia Znumtheory Sorted.
From Verif Require Import Base Lists Py NT Core_Model Core_Props PrimeList_Data PrimeList_Proofs
  Primes_Spec Sieves_Model.
Import ListNotations.
Open Scope Z_scope.

(** ** Square roots used as loop bounds *)
Lemma isqrt_facts n : 0 <= n -> exists r, integer_sqrt n = Ret r /\
  Z.sqrt n <= r <= Z.sqrt n + 1 /\ (n < 2 ^ 52 -> r = Z.sqrt n).
Proof.
  intros Hn. destruct (C04_integer_sqrt_near n Hn) as (r & E & B). exists r.
  split; [exact E|]. split; [exact B|]. intros H.
  destruct (C04_integer_sqrt_exact n (or_introl (conj Hn H))) as (r' & E' & B').
  assert (r' = r) by congruence. subst r'. destruct B' as (B0 & B1 & B2). rewrite !Z.pow_2_r in *.
  symmetry. apply Z.sqrt_unique. lia.
Qed.

Lemma isqrt_loop n : 0 <= n -> exists r, integer_sqrt n = Ret r /\ 0 <= r /\
  n < (r + 1) * (r + 1) /\ (2 <= n -> r < n) /\ (4 <= n / 3 -> r < n / 3).
Proof.
  intros Hn. destruct (isqrt_facts n Hn) as (r & E & B & X). exists r. split; [exact E|].
  pose proof (Z.sqrt_spec n Hn) as S. pose proof (Z.sqrt_nonneg n).
  cbv zeta in S. set (s := Z.sqrt n) in *. change (Z.succ s) with (s + 1) in S.
  split; [lia|]. split.
  { assert ((s + 1) * (s + 1) <= (r + 1) * (r + 1)) by (apply Z.mul_le_mono_nonneg; lia). lia. }
  destruct (Z_lt_le_dec n (2 ^ 52)) as [L|L].
  - specialize (X L). clear L E. split; intros H2; [nia|].
    assert (3 * (n / 3) <= n <= 3 * (n / 3) + 2) by (Z.div_mod_to_equations; lia). nia.
  - assert (L' : 100 < n) by (change (2 ^ 52) with 4503599627370496 in L; lia). clear L X E.
    assert (5 <= s) by nia. split; intros H2; [nia|].
    assert (3 * (n / 3) <= n <= 3 * (n / 3) + 2) by (Z.div_mod_to_equations; lia). nia.
Qed.

(** ** Blocks *)
Definition getb (l : list bool) (j : Z) : bool := nth (Z.to_nat j) l false.

Lemma pyget_getb l i : 0 <= i < Z.of_nat (length l) -> pyget l i = Ret (getb l i).
Proof. intros H. apply pyget_nth. exact H. Qed.

Lemma ones_length m : 0 <= m -> Z.of_nat (length (ones m)) = m.
Proof. intros H. unfold ones. rewrite repeat_length. lia. Qed.

Lemma ones_get m j : 0 <= j < m -> getb (ones m) j = true.
Proof.
  intros H. unfold getb, ones. apply nth_error_nth. apply nth_error_repeat. lia.
Qed.

Lemma strike_spec m a k block : 0 < k -> 0 <= a -> Z.of_nat (length block) = m ->
  exists block', strike m a k block = Ret block' /\ Z.of_nat (length block') = m /\
    forall j, 0 <= j < m ->
      (getb block' j = true <-> getb block j = true /\ ~ (a <= j /\ (k | j - a))).
Proof.
  intros Hk Ha Hm. exists (fill_from 0 a k false block). split; [|split].
  - unfold strike, count_expr. rewrite <- Hm. apply slice_fill_ok. exact Hk.
  - rewrite fill_from_length. exact Hm.
  - intros j Hj. unfold getb. rewrite fill_from_nth by lia.
    replace (0 + Z.of_nat (Z.to_nat j)) with j by lia.
    destruct (Z.leb_spec a j) as [H1|H1].
    + destruct (Z.eqb_spec ((j - a) mod k) 0) as [H2|H2]; cbn [andb].
      * apply Z.mod_divide in H2; [|lia]. split; [discriminate|tauto].
      * split; [|tauto]. intros E. split; [exact E|]. intros [_ D].
        apply H2, Z.mod_divide; [lia|exact D].
    + cbn [andb]. split; [|tauto]. intros E. split; [exact E|lia].
Qed.

Lemma pyset_getb l i b : 0 <= i < Z.of_nat (length l) ->
  exists l', pyset l i b = Ret l' /\ length l' = length l /\
    forall j, 0 <= j -> getb l' j = if j =? i then b else getb l j.
Proof.
  intros H. exists (upd l (Z.to_nat i) b). split; [apply pyset_upd; exact H|].
  split; [apply upd_length|]. intros j Hj. unfold getb. rewrite upd_nth by lia.
  destruct (Nat.eqb_spec (Z.to_nat j) (Z.to_nat i)); destruct (Z.eqb_spec j i); try lia; reflexivity.
Qed.

Lemma odd_prime_exists_bound n q : 2 <= q -> q * q <= n -> q < n.
Proof. nia. Qed.

(** ** eratosthenes1 *)
Definition inv1 (m t : Z) (block : list bool) : Prop :=
  Z.of_nat (length block) = m /\
  forall j, 1 <= j < m ->
    (getb block j = true <->
     forall q, prime q -> q < 2 * t + 1 -> q * q <= 2 * j + 1 -> ~ (q | 2 * j + 1)).

Lemma era1_step_ok m t block : 1 <= t < m -> inv1 m t block ->
  exists block', era1_step m block t = Ret block' /\ inv1 m (t + 1) block'.
Proof.
  intros Ht [Hlen Hb]. unfold era1_step. rewrite pyget_getb by lia. cbn [bind].
  set (k := 2 * t + 1).
  assert (Hpr : getb block t = true <-> prime k).
  { rewrite Hb by lia. rewrite (prime_sqrt k) by (unfold k; lia). fold k.
    split; intros H q Hq; intros; apply H; auto.
    apply odd_prime_exists_bound; [apply prime_ge2; exact Hq|assumption]. }
  assert (Grow : forall j, 1 <= j < m ->
    (forall q, prime q -> q < 2 * (t + 1) + 1 -> q * q <= 2 * j + 1 -> ~ (q | 2 * j + 1)) <->
    (forall q, prime q -> q < 2 * t + 1 -> q * q <= 2 * j + 1 -> ~ (q | 2 * j + 1)) /\
    (prime k -> ~ (k * k <= 2 * j + 1 /\ (k | 2 * j + 1)))).
  { intros j Hj. split.
    - intros H. split; [intros q Hq; intros; apply H; auto; lia|].
      intros Hk [A B]. apply (H k Hk); unfold k; auto; lia.
    - intros [H1 H2] q Hq Hlt Hle D.
      destruct (Z_lt_le_dec q (2 * t + 1)) as [L|L]; [apply (H1 q Hq L Hle D)|].
      assert (q = k \/ q = 2 * (t + 1)) as [-> | ->] by (unfold k; lia); [tauto|].
      pose proof (prime_even _ Hq ltac:(exists (t + 1); lia)). lia. }
  destruct (getb block t) eqn:Eb.
  - assert (Hk : prime k) by (apply Hpr; reflexivity).
    assert (Hk2 : k * k = 2 * (2 * t * t + 2 * t) + 1) by (unfold k; ring).
    assert (Hs : k * k / 2 = 2 * t * t + 2 * t) by (Z.div_mod_to_equations; nia).
    destruct (strike_spec m (k * k / 2) k block) as (block' & E & L & S); [unfold k; lia|nia|exact Hlen|].
    exists block'. split; [exact E|]. split; [exact L|].
    intros j Hj. rewrite S by lia. rewrite Grow by exact Hj. rewrite Hb by exact Hj.
    assert (Q : (k * k / 2 <= j /\ (k | j - k * k / 2)) <-> (k * k <= 2 * j + 1 /\ (k | 2 * j + 1))).
    { rewrite Hs. split; intros [A [c Hc]]; (split; [nia|]).
      - exists (2 * c + k). nia.
      - assert (H2 : (k | j - (2 * t * t + 2 * t))).
        { apply Z.gauss with 2.
          - exists (c - k). nia.
          - apply Zgcd_1_rel_prime. apply Zgcd_1_rel_prime.
            apply Zgcd_1_rel_prime, prime_rel_prime; [exact Hk|].
            intros D. apply Z.divide_pos_le in D; unfold k in *; lia. }
        exact H2. }
    rewrite Q. tauto.
  - exists block. split; [reflexivity|]. split; [exact Hlen|]. intros j Hj.
    rewrite Grow, Hb by exact Hj. assert (~ prime k) by (intros Hk; apply Hpr in Hk; discriminate).
    tauto.
Qed.

Lemma era1_loop m r : 2 <= m -> r < m -> 0 <= r ->
  exists block, foldM (era1_step m) (zrange 1 (r + 1)) (ones m) = Ret block /\ inv1 m (r + 1) block.
Proof.
  intros Hm Hr H0.
  assert (G : forall k, 0 <= k -> k <= r -> exists block,
     foldM (era1_step m) (zrange 1 (k + 1)) (ones m) = Ret block /\ inv1 m (k + 1) block).
  { intros k Hk. pattern k. apply natlike_ind; [| |exact Hk].
    - intros _. exists (ones m). split; [rewrite zrange_nil by lia; reflexivity|].
      split; [apply ones_length; lia|]. intros j Hj. rewrite ones_get by lia. split; [|reflexivity].
      intros _ q Hq Hlt Hle D. pose proof (prime_ge2 q Hq). assert (q = 2) by lia. subst q.
      destruct D as [c Hc]. lia.
    - intros j Hj IH Hle. destruct (IH ltac:(lia)) as (block & E & I).
      rewrite <- Z.add_1_r, zrange_snoc by lia. rewrite foldM_app, E. cbn [bind foldM].
      destruct (era1_step_ok m (j + 1) block ltac:(lia) I) as (block' & E' & I').
      rewrite E'. cbn [bind foldM]. exists block'. split; [reflexivity|exact I']. }
  apply G; lia.
Qed.

Lemma map_sorted_lt (f : Z -> Z) l : (forall x y, In x l -> In y l -> x < y -> f x < f y) ->
  StronglySorted Z.lt l -> StronglySorted Z.lt (map f l).
Proof.
  induction l as [|a l IH]; intros Hf H; [constructor|].
  inversion H as [|? ? H1 H2]; subst. cbn [map]. constructor.
  - apply IH; [|exact H1]. intros x y Hx Hy. apply Hf; right; assumption.
  - rewrite Forall_forall in *. intros y Hy. apply in_map_iff in Hy as (x & <- & Hx).
    apply Hf; [left; reflexivity|right; exact Hx|apply H2; exact Hx].
Qed.

Lemma eratosthenes1_correct n : exists l, eratosthenes1 n = Ret l /\ primes_upto n l.
Proof.
  unfold eratosthenes1. destruct (Z.leb_spec n 1) as [H|H].
  - exists []. split; [reflexivity|]. split; [constructor|]. intros p. split; [intros []|].
    intros [Hp L]. pose proof (prime_ge2 p Hp). lia.
  - set (m := n / 2 + 1).
    assert (Hm : 2 <= m) by (unfold m; Z.div_mod_to_equations; lia).
    destruct (isqrt_loop m ltac:(lia)) as (r & -> & R0 & R1 & R2 & _). cbn [bind].
    destruct (era1_loop m r Hm ltac:(lia) R0) as (block & -> & Hlen & Hb). cbn [bind].
    set (u := n / 2 + n mod 2).
    assert (Hu : forall i, i < u <-> 2 * i + 1 <= n) by (intros i; unfold u; Z.div_mod_to_equations; lia).
    assert (Hum : u <= m) by (unfold u, m; Z.div_mod_to_equations; lia).
    rewrite (filterM_ret _ (getb block)).
    2:{ intros x Hx. rewrite zrange_In in Hx. apply pyget_getb. lia. }
    cbn [bind]. eexists. split; [reflexivity|]. split.
    + constructor.
      * apply map_sorted_lt; [intros; lia|]. apply filter_sorted, zrange_sorted.
      * apply Forall_forall. intros y Hy. apply in_map_iff in Hy as (x & <- & Hx).
        apply filter_In in Hx as [Hx _]. rewrite zrange_In in Hx. lia.
    + assert (Hpr : forall i, 1 <= i < m -> (getb block i = true <-> prime (2 * i + 1))).
      { intros i Hi. rewrite Hb by exact Hi. rewrite (prime_sqrt (2 * i + 1)) by lia.
        split; intros X q Hq; intros; apply X; auto. pose proof (prime_ge2 q Hq). nia. }
      intros p. cbn [In]. rewrite in_map_iff. split.
      * intros [<-|(i & <- & Hi)]; [split; [exact prime_2|lia]|].
        apply filter_In in Hi as [Hi E]. rewrite zrange_In in Hi.
        split; [apply Hpr; [lia|exact E]|apply Hu; lia].
      * intros [Hp Hle]. pose proof (prime_ge2 p Hp).
        destruct (Z.eq_dec p 2) as [->|Hne]; [left; reflexivity|right].
        assert (Hodd : p = 2 * (p / 2) + 1).
        { assert (p mod 2 <> 0). { intros E. apply Z.mod_divide in E; [|lia].
            apply prime_even in E; [lia|exact Hp]. }
          Z.div_mod_to_equations. lia. }
        assert (p / 2 < u) by (apply Hu; lia).
        exists (p / 2). split; [lia|]. apply filter_In. rewrite zrange_In. split; [lia|].
        apply Hpr; [lia|]. rewrite <- Hodd. exact Hp.
Qed.

(** ** Numbers coprime to 6 *)
Definition cop6 (x : Z) : Prop := x mod 2 <> 0 /\ x mod 3 <> 0.

Lemma cop6_mod x : cop6 x <-> x mod 6 = 1 \/ x mod 6 = 5.
Proof.
  unfold cop6. pose proof (Z.mod_pos_bound x 6 ltac:(lia)).
  pose proof (Z.div_mod x 6 ltac:(lia)) as E. set (c := x / 6) in *. set (r := x mod 6) in *.
  rewrite E. replace (6 * c + r) with (r + (3 * c) * 2) at 1 by ring.
  replace (6 * c + r) with (r + (2 * c) * 3) by ring. rewrite !Z_mod_plus_full.
  assert (r = 0 \/ r = 1 \/ r = 2 \/ r = 3 \/ r = 4 \/ r = 5) as D by lia.
  destruct D as [-> |[-> |[-> |[-> |[-> | ->]]]]]; cbn; lia.
Qed.

Lemma other_mod k : cop6 k -> (k mod 6 = 1 /\ other k = k + 4 /\ other k mod 6 = 5) \/
  (k mod 6 = 5 /\ other k = k + 2 /\ other k mod 6 = 1).
Proof.
  intros H. apply cop6_mod in H. unfold other. destruct (Z.eqb_spec (k mod 6) 1) as [E|E].
  - left. split; [exact E|]. split; [reflexivity|]. Z.div_mod_to_equations. lia.
  - right. split; [lia|]. split; [reflexivity|]. Z.div_mod_to_equations. lia.
Qed.

Lemma num6_eq i : 0 <= i -> num6 i = 3 * i + 1 + i mod 2.
Proof.
  intros Hi. unfold num6. destruct (Z.Even_or_Odd i) as [[c ->]|[c ->]].
  - replace ((2 * c) mod 2) with 0 by (Z.div_mod_to_equations; lia).
    replace (3 * (2 * c) + 1) with (2 * (3 * c) + 1) by ring.
    apply Z.bits_inj'. intros k Hk. rewrite Z.lor_spec.
    destruct (Z.eq_dec k 0) as [->|Hne].
    + rewrite Z.add_0_r, Z.testbit_odd_0. reflexivity.
    + rewrite Z.add_0_r. rewrite (Z.bits_above_log2 1 k) by (change (Z.log2 1) with 0; lia).
      apply orb_false_r.
  - replace ((2 * c + 1) mod 2) with 1 by (Z.div_mod_to_equations; lia).
    replace (3 * (2 * c + 1) + 1) with (2 * (3 * c + 2)) by ring.
    apply Z.bits_inj'. intros k Hk. rewrite Z.lor_spec.
    destruct (Z.eq_dec k 0) as [->|Hne].
    + rewrite Z.testbit_even_0. rewrite Z.testbit_odd_0. reflexivity.
    + rewrite (Z.bits_above_log2 1 k) by (change (Z.log2 1) with 0; lia). rewrite orb_false_r.
      replace k with (Z.succ (k - 1)) by lia.
      rewrite Z.testbit_odd_succ, Z.testbit_even_succ by lia. reflexivity.
Qed.

Lemma num6_cop i : 0 <= i -> cop6 (num6 i).
Proof. intros Hi. rewrite num6_eq by exact Hi. unfold cop6. Z.div_mod_to_equations. lia. Qed.

Lemma num6_div x : 0 <= x -> cop6 x -> num6 (x / 3) = x.
Proof.
  intros Hx [H2 H3]. rewrite num6_eq by (apply Z.div_pos; lia). Z.div_mod_to_equations. lia.
Qed.

Lemma div_num6 i : 0 <= i -> num6 i / 3 = i.
Proof. intros Hi. rewrite num6_eq by exact Hi. Z.div_mod_to_equations. lia. Qed.

Lemma num6_shift a c : 0 <= a -> 0 <= a + 2 * c -> num6 (a + 2 * c) = num6 a + 6 * c.
Proof. intros. rewrite !num6_eq by lia. Z.div_mod_to_equations. lia. Qed.

Lemma num6_lt i j : 0 <= i -> i < j -> num6 i < num6 j.
Proof. intros. rewrite !num6_eq by lia. Z.div_mod_to_equations. lia. Qed.

Lemma cop6_mul x y : cop6 (x * y) <-> cop6 x /\ cop6 y.
Proof.
  unfold cop6. rewrite (Z.mul_mod x y 2), (Z.mul_mod x y 3) by lia.
  assert (x mod 2 = 0 \/ x mod 2 = 1) as [-> | ->] by (Z.div_mod_to_equations; lia);
  assert (y mod 2 = 0 \/ y mod 2 = 1) as [-> | ->] by (Z.div_mod_to_equations; lia);
  assert (x mod 3 = 0 \/ x mod 3 = 1 \/ x mod 3 = 2) as [-> |[-> | ->]] by (Z.div_mod_to_equations; lia);
  assert (y mod 3 = 0 \/ y mod 3 = 1 \/ y mod 3 = 2) as [-> |[-> | ->]] by (Z.div_mod_to_equations; lia);
  cbn; lia.
Qed.

Lemma other_facts k : cop6 k -> k < other k <= k + 4 /\ cop6 (other k).
Proof.
  intros H. rewrite cop6_mod. destruct (other_mod k H) as [(A1 & A2 & A3)|(A1 & A2 & A3)]; lia.
Qed.

Lemma strike_set t j : 1 <= t -> 0 <= j ->
  let k := num6 t in
  ((k * k / 3 <= j /\ (2 * k | j - k * k / 3)) \/
   (k * other k / 3 <= j /\ (2 * k | j - k * other k / 3))) <->
  (k * k <= num6 j /\ (k | num6 j)).
Proof.
  intros Ht Hj k.
  assert (Ck : cop6 k) by (apply num6_cop; lia).
  assert (Hk : 5 <= k) by (unfold k; rewrite num6_eq by lia; Z.div_mod_to_equations; lia).
  destruct (other_facts k Ck) as [Ho Co].
  assert (Na : num6 (k * k / 3) = k * k) by (apply num6_div; [nia|apply cop6_mul; tauto]).
  assert (Nb : num6 (k * other k / 3) = k * other k) by (apply num6_div; [nia|apply cop6_mul; tauto]).
  assert (Pa : 0 <= k * k / 3) by (apply Z.div_pos; nia).
  assert (Pb : 0 <= k * other k / 3) by (apply Z.div_pos; nia).
  split.
  - intros [[H [c Hc]]|[H [c Hc]]].
    + assert (E : j = k * k / 3 + 2 * (k * c)) by lia.
      rewrite E, num6_shift by lia. rewrite Na. split; [nia|exists (k + 6 * c); ring].
    + assert (E : j = k * other k / 3 + 2 * (k * c)) by lia.
      rewrite E, num6_shift by lia. rewrite Nb. split; [nia|exists (other k + 6 * c); ring].
  - intros [H [M HM]].
    assert (CM : cop6 (M * k)) by (rewrite <- HM; apply num6_cop; lia).
    apply cop6_mul in CM as [CM _].
    assert (HMk : k <= M) by nia.
    assert (Mod : M mod 6 = k mod 6 \/ M mod 6 = other k mod 6).
    { apply cop6_mod in CM. destruct (other_mod k Ck) as [?|?]; lia. }
    destruct Mod as [Mod|Mod].
    + left. set (c := (M - k) / 6).
      assert (EM : M = k + 6 * c) by (unfold c; clear - Mod; Z.div_mod_to_equations; lia).
      assert (0 <= c) by (unfold c; apply Z.div_pos; lia).
      assert (E : j = k * k / 3 + 2 * (k * c)).
      { rewrite <- (div_num6 j) by lia. rewrite <- (div_num6 (k * k / 3 + 2 * (k * c))) by nia.
        rewrite num6_shift by nia. rewrite Na, HM, EM. f_equal. ring. }
      split; [nia|]. exists c. lia.
    + right. set (c := (M - other k) / 6).
      assert (EM : M = other k + 6 * c) by (unfold c; clear - Mod; Z.div_mod_to_equations; lia).
      assert (other k <= M).
      { destruct (other_mod k Ck) as [(A1 & A2 & A3)|(A1 & A2 & A3)]; rewrite A2, A3 in *; clear - Mod HMk A1;
          Z.div_mod_to_equations; lia. }
      assert (0 <= c) by (unfold c; apply Z.div_pos; lia).
      assert (E : j = k * other k / 3 + 2 * (k * c)).
      { rewrite <- (div_num6 j) by lia. rewrite <- (div_num6 (k * other k / 3 + 2 * (k * c))) by nia.
        rewrite num6_shift by nia. rewrite Nb, HM, EM. f_equal. ring. }
      split; [nia|]. exists c. lia.
Qed.

(** Invariant of the loops of [eratosthenes2] and [luo]. *)
Definition inv6 (m t : Z) (block : list bool) : Prop :=
  Z.of_nat (length block) = m /\
  forall j, 1 <= j < m ->
    (getb block j = true <->
     forall q, prime q -> q < num6 t -> q * q <= num6 j -> ~ (q | num6 j)).

Lemma cop6_prime q : prime q -> 5 <= q -> cop6 q.
Proof.
  intros Hq H5. split; intros E; apply Z.mod_divide in E; try lia;
    destruct (prime_divisors_cases q _ Hq E); lia.
Qed.

Lemma prime_divides_cop6 q x : prime q -> (q | x) -> cop6 x -> 5 <= q.
Proof.
  intros Hq D [H2 H3]. pose proof (prime_ge2 q Hq).
  assert (q <> 2). { intros ->. apply H2, Z.mod_divide; [lia|exact D]. }
  assert (q <> 3). { intros ->. apply H3, Z.mod_divide; [lia|exact D]. }
  assert (q <> 4). { intros ->. pose proof (prime_even 4 Hq ltac:(exists 2; reflexivity)). lia. }
  lia.
Qed.

(** Both strikes together advance the invariant; nothing to do when [num6 t] is composite. *)
Lemma inv6_prime m t block : 1 <= t < m -> inv6 m t block ->
  (getb block t = true <-> prime (num6 t)).
Proof.
  intros Ht [_ Hb]. rewrite Hb by lia.
  assert (5 <= num6 t) by (rewrite num6_eq by lia; Z.div_mod_to_equations; lia).
  rewrite (prime_sqrt (num6 t)) by lia.
  split; intros H1 q Hq; intros; apply H1; auto.
  apply odd_prime_exists_bound; [apply prime_ge2; exact Hq|assumption].
Qed.

Lemma inv6_grow m t j : 1 <= t -> 1 <= j < m ->
    (forall q, prime q -> q < num6 (t + 1) -> q * q <= num6 j -> ~ (q | num6 j)) <->
    (forall q, prime q -> q < num6 t -> q * q <= num6 j -> ~ (q | num6 j)) /\
    (prime (num6 t) -> ~ (num6 t * num6 t <= num6 j /\ (num6 t | num6 j))).
Proof.
  intros Ht Hj.
  assert (L1 : num6 t < num6 (t + 1)) by (apply num6_lt; lia). set (k := num6 t) in *.
  split.
  - intros H. split; [intros q Hq; intros; apply H; auto; lia|].
    intros Hk [A B]. apply (H k Hk); auto.
  - intros [H1 H2] q Hq Hlt Hle D.
    destruct (Z_lt_le_dec q k) as [L|L]; [apply (H1 q Hq L Hle D)|].
    assert (C : cop6 q).
    { apply cop6_prime; [exact Hq|]. eapply prime_divides_cop6; eauto. apply num6_cop; lia. }
    assert (q = k).
    { revert C L Hlt. unfold k. rewrite !num6_eq by lia. clear. unfold cop6.
      Z.div_mod_to_equations. lia. }
    subst q. tauto.
Qed.

Lemma inv6_skip m t block : 1 <= t < m -> inv6 m t block -> getb block t = false ->
  inv6 m (t + 1) block.
Proof.
  intros Ht I E. pose proof (inv6_prime m t block Ht I) as P. destruct I as [L Hb].
  split; [exact L|]. intros j Hj. rewrite inv6_grow with (m := m) by lia. rewrite Hb by exact Hj.
  assert (~ prime (num6 t)) by (intros Q; apply P in Q; congruence). tauto.
Qed.

Lemma inv6_strike m t block a b : 1 <= t < m -> inv6 m t block -> getb block t = true ->
  a = num6 t * num6 t / 3 -> b = num6 t * other (num6 t) / 3 ->
  exists block1 block', strike m a (2 * num6 t) block = Ret block1 /\
    strike m b (2 * num6 t) block1 = Ret block' /\ inv6 m (t + 1) block'.
Proof.
  intros Ht I E Ea Eb. pose proof (inv6_prime m t block Ht I) as P. destruct I as [L Hb].
  assert (Hk : 5 <= num6 t) by (rewrite num6_eq by lia; Z.div_mod_to_equations; lia).
  assert (Ck : cop6 (num6 t)) by (apply num6_cop; lia).
  destruct (other_facts _ Ck) as [Ho Co].
  assert (0 <= a) by (rewrite Ea; apply Z.div_pos; nia).
  assert (0 <= b) by (rewrite Eb; apply Z.div_pos; nia).
  destruct (strike_spec m a (2 * num6 t) block ltac:(lia) ltac:(lia) L) as (b1 & E1 & L1 & S1).
  destruct (strike_spec m b (2 * num6 t) b1 ltac:(lia) ltac:(lia) L1) as (b2 & E2 & L2 & S2).
  exists b1, b2. split; [exact E1|]. split; [exact E2|]. split; [exact L2|].
  intros j Hj. rewrite S2, S1, Hb by lia. rewrite inv6_grow with (m := m) by lia.
  pose proof (strike_set t j ltac:(lia) ltac:(lia)) as X. cbv zeta in X.
  rewrite <- Ea, <- Eb in X. apply P in E. tauto.
Qed.

Lemma era2_step_ok m t block : 1 <= t < m -> inv6 m t block ->
  exists block', era2_step m block t = Ret block' /\ inv6 m (t + 1) block'.
Proof.
  intros Ht I. pose proof I as [L _]. unfold era2_step. rewrite pyget_getb by lia. cbn [bind].
  destruct (getb block t) eqn:E.
  - assert (Hb : (num6 t * num6 t + 4 * num6 t - 2 * num6 t * Z.land t 1) / 3 =
                 num6 t * other (num6 t) / 3).
    { f_equal. unfold other. change 1 with (Z.ones 1) at 1. rewrite Z.land_ones by lia.
      change (2 ^ 1) with 2. destruct (Z.eqb_spec (num6 t mod 6) 1) as [E6|E6];
      rewrite num6_eq in E6 by lia.
      - assert (t mod 2 = 0) as -> by (Z.div_mod_to_equations; lia). ring.
      - assert (t mod 2 = 1) as -> by (Z.div_mod_to_equations; lia). ring. }
    rewrite Hb.
    destruct (inv6_strike m t block _ _ Ht I E eq_refl eq_refl) as (b1 & b2 & E1 & E2 & I2).
    rewrite E1. cbn [bind]. rewrite E2. eauto.
  - exists block. split; [reflexivity|]. apply inv6_skip; assumption.
Qed.

Lemma inv6_init m block : Z.of_nat (length block) = m ->
  (forall j, 1 <= j < m -> getb block j = true) -> inv6 m 1 block.
Proof.
  intros L H. split; [exact L|]. intros j Hj. split; [|intros _; apply H; exact Hj].
  intros _ q Hq Hlt Hle D.
  assert (5 <= q) by (eapply prime_divides_cop6; eauto; apply num6_cop; lia).
  change (num6 1) with 5 in Hlt. lia.
Qed.

Lemma era2_loop m r block : 1 <= m -> 0 <= r < m -> Z.of_nat (length block) = m ->
  (forall j, 1 <= j < m -> getb block j = true) -> getb block 0 = false ->
  exists block', foldM (era2_step m) (zrange 0 (r + 1)) block = Ret block' /\ inv6 m (r + 1) block'.
Proof.
  intros Hm Hr L H1 H0.
  assert (G : forall k, 0 <= k -> k <= r -> exists block',
     foldM (era2_step m) (zrange 0 (k + 1)) block = Ret block' /\ inv6 m (k + 1) block').
  { intros k Hk. pattern k. apply natlike_ind; [| |exact Hk].
    - intros _. exists block. split; [|apply inv6_init; assumption].
      rewrite zrange_cons, zrange_nil by lia. cbn [foldM]. unfold era2_step.
      rewrite pyget_getb by lia. rewrite H0. reflexivity.
    - intros j Hj IH Hle. destruct (IH ltac:(lia)) as (b & E & I).
      rewrite <- Z.add_1_r, zrange_snoc by lia. rewrite foldM_app, E. cbn [bind foldM].
      destruct (era2_step_ok m (j + 1) b ltac:(lia) I) as (b' & E' & I').
      rewrite E'. cbn [bind foldM]. exists b'. split; [reflexivity|exact I']. }
  apply G; lia.
Qed.

Lemma round6_facts n : 4 <= n ->
  let n1 := n + 1 in
  let n2 := round6 n1 in
  let off := if 1 <? n1 mod 6 then 1 else 0 in
  n2 = 3 * (n2 / 3) /\ 2 <= n2 / 3 /\ (7 <= n -> 4 <= n2 / 3) /\ 0 <= off <= 1 /\
  n2 / 3 mod 2 = 0 /\
  (forall i, 0 <= i -> (i < n2 / 3 - off <-> num6 i <= n)).
Proof.
  intros Hn. cbv zeta. unfold round6.
  assert (N : forall i, 0 <= i -> num6 i = 3 * i + 1 + i mod 2) by (intros; apply num6_eq; assumption).
  pose proof (Z.mod_pos_bound (n + 1) 6 ltac:(lia)) as B.
  pose proof (Z.div_mod (n + 1) 6 ltac:(lia)) as E.
  set (c := (n + 1) / 6) in *. clearbody c. set (r := (n + 1) mod 6) in *. clearbody r.
  assert (n = 6 * c + r - 1) by lia. subst n. clear E.
  assert (r = 0 \/ r = 1 \/ r = 2 \/ r = 3 \/ r = 4 \/ r = 5) as D by lia.
  assert (A : exists a, (if r =? 0 then 6 * c + r - 1 + 1 else if r =? 1 then 6 * c + r - 1 + 1 - 1
     else if r =? 2 then 6 * c + r - 1 + 1 + 4 else if r =? 3 then 6 * c + r - 1 + 1 + 3
     else if r =? 4 then 6 * c + r - 1 + 1 + 2 else 6 * c + r - 1 + 1 + 1) = 6 * a /\
     a = (if 1 <? r then c + 1 else c)).
  { destruct D as [-> |[-> |[-> |[-> |[-> | ->]]]]]; cbn -[Z.mul]; eexists; split; eauto; lia. }
  destruct A as (a & -> & Ha).
  replace (6 * a / 3) with (2 * a) by (Z.div_mod_to_equations; lia).
  replace (2 * a mod 2) with 0 by (Z.div_mod_to_equations; lia).
  destruct D as [-> |[-> |[-> |[-> |[-> | ->]]]]]; cbn -[Z.mul num6] in *; subst a;
    (split; [lia|]; split; [lia|]; split; [lia|]; split; [lia|]; split; [lia|];
     intros i Hi; rewrite N by lia; clear - Hi Hn; Z.div_mod_to_equations; lia).
Qed.

Lemma wheel_result n m off block t : 4 <= n -> 1 <= t -> m = round6 (n + 1) / 3 ->
  off = (if 1 <? (n + 1) mod 6 then 1 else 0) ->
  inv6 m t block -> 3 * m < num6 t * num6 t ->
  filterM (pyget block) (zrange 1 (m - off)) = Ret (filter (getb block) (zrange 1 (m - off))) /\
  primes_upto n (2 :: 3 :: map num6 (filter (getb block) (zrange 1 (m - off)))).
Proof.
  intros Hn Ht Hm Ho [L Hb] Hbig.
  pose proof (round6_facts n Hn) as F. cbv zeta in F. rewrite <- Ho, <- Hm in F.
  destruct F as (F1 & F2 & _ & F3 & F5 & F4).
  split.
  - apply filterM_ret. intros x Hx. rewrite zrange_In in Hx. apply pyget_getb. lia.
  - assert (Hge : forall x, In x (map num6 (filter (getb block) (zrange 1 (m - off)))) -> 5 <= x).
    { intros y Hy. apply in_map_iff in Hy as (x & <- & Hx).
      apply filter_In in Hx as [Hx _]. rewrite zrange_In in Hx.
      rewrite num6_eq by lia. Z.div_mod_to_equations. lia. }
    split.
    + constructor; [constructor|].
      * apply map_sorted_lt.
        -- intros x y Hx Hy. apply filter_In in Hx as [Hx _]. apply filter_In in Hy as [Hy _].
           rewrite zrange_In in Hx, Hy. intros. apply num6_lt; lia.
        -- apply filter_sorted, zrange_sorted.
      * apply Forall_forall. intros y Hy. apply Hge in Hy. lia.
      * apply Forall_forall. intros y [<-|Hy]; [lia|]. apply Hge in Hy. lia.
    + assert (Hpr : forall i, 1 <= i < m -> (getb block i = true <-> prime (num6 i))).
      { intros i Hi. rewrite Hb by exact Hi. rewrite (prime_sqrt (num6 i))
          by (rewrite num6_eq by lia; Z.div_mod_to_equations; lia).
        assert (num6 i < 3 * m).
        { rewrite num6_eq by lia. clear - Hi F5. Z.div_mod_to_equations. lia. }
        split; intros X q Hq; intros; apply X; auto. pose proof (prime_ge2 q Hq).
        pose proof (num6_cop t ltac:(lia)). rewrite num6_eq in * by lia.
        assert (0 <= t mod 2) by (apply Z.mod_pos_bound; lia). nia. }
      intros p. cbn [In]. rewrite in_map_iff. split.
      * intros [<-|[<-|(i & <- & Hi)]]; [split; [exact prime_2|lia]|split; [exact prime_3|lia]|].
        apply filter_In in Hi as [Hi E]. rewrite zrange_In in Hi.
        split; [apply Hpr; [lia|exact E]|apply F4; lia].
      * intros [Hp Hle]. pose proof (prime_ge2 p Hp).
        destruct (Z.eq_dec p 2) as [->|N2]; [left; reflexivity|right].
        destruct (Z.eq_dec p 3) as [->|N3]; [left; reflexivity|right].
        assert (N4 : p <> 4).
        { intros ->. pose proof (prime_even 4 Hp ltac:(exists 2; reflexivity)). lia. }
        assert (C : cop6 p) by (apply cop6_prime; [exact Hp|lia]).
        assert (En : num6 (p / 3) = p) by (apply num6_div; [lia|exact C]).
        assert (1 <= p / 3) by (apply Z.div_le_lower_bound; lia).
        assert (p / 3 < m - off) by (apply F4; [lia|]; lia).
        exists (p / 3). split; [exact En|]. apply filter_In. rewrite zrange_In. split; [lia|].
        apply Hpr; [lia|]. rewrite En. exact Hp.
Qed.

Lemma primes_upto_1 n : n <= 1 -> primes_upto n [].
Proof.
  intros H. split; [constructor|]. intros p. split; [intros []|].
  intros [Hp L]. pose proof (prime_ge2 p Hp). lia.
Qed.

Lemma primes_upto_unique n l l' : primes_upto n l -> primes_upto n l' -> l = l'.
Proof.
  intros [S1 H1] [S2 H2]. apply sorted_lt_ext; auto. intros x. rewrite H1, H2. reflexivity.
Qed.

Lemma eratosthenes2_correct n : exists l, eratosthenes2 n = Ret l /\ primes_upto n l.
Proof.
  unfold eratosthenes2. destruct (Z.leb_spec n 1) as [H|H].
  { exists []. split; [reflexivity|apply primes_upto_1; exact H]. }
  destruct (Z.leb_spec n 3) as [H3|H3].
  { eexists. split; [reflexivity|]. split; [apply zrange_sorted|].
    intros p. rewrite zrange_In. split.
    - intros Hp. split; [|lia]. assert (p = 2 \/ p = 3) as [-> | ->] by lia; [exact prime_2|exact prime_3].
    - intros [Hp L]. pose proof (prime_ge2 p Hp). lia. }
  cbv zeta. pose proof (round6_facts n ltac:(lia)) as F. cbv zeta in F.
  remember (if 1 <? (n + 1) mod 6 then 1 else 0) as off eqn:Ho.
  remember (round6 (n + 1)) as n2 eqn:En2. remember (n2 / 3) as m eqn:Em.
  destruct F as (F1 & F2 & _ & F3 & F5 & F4).
  destruct (pyset_getb (ones m) 0 false) as (b0 & -> & L0 & G0); [rewrite ones_length; lia|].
  cbn [bind]. destruct (isqrt_loop n2 ltac:(lia)) as (r & -> & R0 & R1 & R2 & _). cbn [bind].
  assert (Q0 : 0 <= r / 3) by (apply Z.div_pos; lia).
  assert (Qr : 3 * (r / 3) <= r < 3 * (r / 3) + 3) by (clear; Z.div_mod_to_equations; lia).
  destruct (era2_loop m (r / 3) b0) as (block & -> & I).
  - lia.
  - lia.
  - rewrite L0. apply ones_length; lia.
  - intros j Hj. rewrite G0 by lia. destruct (Z.eqb_spec j 0); [lia|]. apply ones_get; lia.
  - rewrite G0 by lia. reflexivity.
  - cbn [bind].
    destruct (wheel_result n m off block (r / 3 + 1)) as [E P]; try assumption; try lia.
    + rewrite Em, En2. reflexivity.
    + assert (3 * (r / 3 + 1) + 1 <= num6 (r / 3 + 1)).
      { rewrite num6_eq by lia. pose proof (Z.mod_pos_bound (r / 3 + 1) 2 ltac:(lia)). lia. }
      nia.
    + rewrite E. cbn [bind]. eexists. split; [reflexivity|exact P].
Qed.

Lemma luo_step_ok m i block : 1 <= i < m -> inv6 m i block ->
  exists block', luo_step m (block, num6 (i - 1) * num6 (i - 1) / 3, 1 + (i - 1) mod 2, 2 * num6 (i - 1)) i =
    Ret (block', num6 i * num6 i / 3, 1 + i mod 2, 2 * num6 i) /\ inv6 m (i + 1) block'.
Proof.
  intros Hi I. pose proof I as [L _]. unfold luo_step.
  assert (Ek : 3 - (1 + (i - 1) mod 2) = 1 + i mod 2) by (clear; Z.div_mod_to_equations; lia).
  rewrite Ek.
  assert (Ca : cop6 (num6 (i - 1))) by (apply num6_cop; lia).
  assert (Cb : cop6 (num6 i)) by (apply num6_cop; lia).
  assert (D : forall k, cop6 k -> k * k = 3 * (k * k / 3) + 1).
  { intros k [H2 H3]. clear - H3. pose proof (Z.div_mod (k * k) 3 ltac:(lia)) as E.
    assert (k * k mod 3 = 1); [|lia]. rewrite Z.mul_mod by lia.
    assert (k mod 3 = 1 \/ k mod 3 = 2) as [-> | ->] by (Z.div_mod_to_equations; lia); reflexivity. }
  pose proof (D _ Ca) as Da. pose proof (D _ Cb) as Db.
  assert (Ea : num6 (i - 1) * num6 (i - 1) / 3 + 4 * (1 + i mod 2) * i = num6 i * num6 i / 3).
  { revert Da Db. set (x := _ / 3). set (y := _ / 3). clearbody x y.
    rewrite !num6_eq by lia. replace ((i - 1) mod 2) with (1 - i mod 2) by lia.
    assert (i mod 2 = 0 \/ i mod 2 = 1) as [-> | ->] by (clear; Z.div_mod_to_equations; lia); nia. }
  assert (Et : 2 * num6 (i - 1) + 4 * (1 + i mod 2) = 2 * num6 i).
  { rewrite !num6_eq by lia. replace ((i - 1) mod 2) with (1 - i mod 2) by lia. lia. }
  rewrite Ea, Et. rewrite pyget_getb by lia. cbn [bind].
  destruct (getb block i) eqn:E.
  - assert (Eb : num6 i * num6 i / 3 + 2 * i * (3 - (1 + i mod 2)) + 1 = num6 i * other (num6 i) / 3).
    { apply Z.div_unique with (if num6 i mod 6 =? 1 then 2 else 2); [left; destruct (_ =? _); lia|].
      unfold other. destruct (Z.eqb_spec (num6 i mod 6) 1) as [E6|E6].
      - assert (Ei : i mod 2 = 0) by (rewrite num6_eq in E6 by lia; clear - E6; Z.div_mod_to_equations; lia).
        assert (En : num6 i = 3 * i + 1) by (rewrite num6_eq by lia; lia). rewrite Ei. lia.
      - assert (Ei : i mod 2 = 1) by (rewrite num6_eq in E6 by lia; clear - E6; Z.div_mod_to_equations; lia).
        assert (En : num6 i = 3 * i + 2) by (rewrite num6_eq by lia; lia). rewrite Ei. lia. }
    rewrite Eb.
    destruct (inv6_strike m i block _ _ Hi I E eq_refl eq_refl) as (b1 & b2 & E1 & E2 & I2).
    rewrite E1. cbn [bind]. rewrite E2. cbn [bind]. exists b2. split; [reflexivity|exact I2].
  - exists block. split; [reflexivity|]. apply inv6_skip; assumption.
Qed.

Lemma luo_loop m r : 1 <= m -> 0 <= r < m ->
  exists block, foldM (luo_step m) (zrange 1 (r + 1)) (ones m, 0, 1, 2) =
    Ret (block, num6 r * num6 r / 3, 1 + r mod 2, 2 * num6 r) /\ inv6 m (r + 1) block.
Proof.
  intros Hm Hr.
  assert (G : forall k, 0 <= k -> k <= r -> exists block,
     foldM (luo_step m) (zrange 1 (k + 1)) (ones m, 0, 1, 2) =
       Ret (block, num6 k * num6 k / 3, 1 + k mod 2, 2 * num6 k) /\ inv6 m (k + 1) block).
  { intros k Hk. pattern k. apply natlike_ind; [| |exact Hk].
    - intros _. exists (ones m). split; [rewrite zrange_nil by lia; reflexivity|].
      apply inv6_init; [apply ones_length; lia|]. intros j Hj. apply ones_get; lia.
    - intros j Hj IH Hle. destruct (IH ltac:(lia)) as (b & E & I).
      rewrite <- Z.add_1_r, zrange_snoc by lia. rewrite foldM_app, E. cbn [bind foldM].
      destruct (luo_step_ok m (j + 1) b ltac:(lia) I) as (b' & E' & I').
      replace (j + 1 - 1) with j in E' by lia.
      rewrite E'. cbn [bind foldM]. exists b'. split; [reflexivity|exact I']. }
  apply G; lia.
Qed.

Lemma prime_5 : prime 5.
Proof.
  apply prime_sqrt; [lia|]. intros q Hq Hqq D. pose proof (prime_ge2 q Hq).
  assert (q = 2) by nia. subst q. destruct D as [c Hc]. lia.
Qed.

Lemma not_prime_4 : ~ prime 4. Proof. apply (prime_not_prime_mul 2 2); lia. Qed.
Lemma not_prime_6 : ~ prime 6. Proof. apply (prime_not_prime_mul 2 3); lia. Qed.

Lemma luo_correct n : exists l, luo n = Ret l /\ primes_upto n l.
Proof.
  unfold luo. destruct (Z.leb_spec n 1) as [H|H].
  { exists []. split; [reflexivity|apply primes_upto_1; exact H]. }
  destruct (Z.leb_spec n 6) as [H6|H6].
  { eexists. split; [reflexivity|]. pose proof prime_5. pose proof not_prime_4. pose proof not_prime_6.
    pose proof prime_2. pose proof prime_3.
    assert (n = 2 \/ n = 3 \/ n = 4 \/ n = 5 \/ n = 6) as [-> |[-> |[-> |[-> | ->]]]] by lia; cbn;
    (split; [repeat constructor; lia|]; intros p; cbn [In]; split;
      [intuition (subst; (assumption || lia))|]);
      intros [Hp L]; pose proof (prime_ge2 p Hp);
      assert (p <> 4) by congruence; assert (p <> 6) by congruence; lia. }
  cbv zeta. pose proof (round6_facts n ltac:(lia)) as F. cbv zeta in F.
  remember (if 1 <? (n + 1) mod 6 then 1 else 0) as off eqn:Ho.
  remember (round6 (n + 1)) as n2 eqn:En2. remember (n2 / 3) as m eqn:Em.
  destruct F as (F1 & F2 & F6 & F3 & F5 & F4).
  destruct (isqrt_loop n2 ltac:(lia)) as (r & -> & R0 & R1 & _ & R2). cbn [bind].
  rewrite <- Em in R2. specialize (F6 ltac:(lia)). specialize (R2 F6).
  destruct (luo_loop m r ltac:(lia) ltac:(lia)) as (block & -> & I). cbn [bind].
  destruct (wheel_result n m off block (r + 1)) as [E P]; try assumption; try lia.
  - rewrite Em, En2. reflexivity.
  - assert (3 * (r + 1) + 1 <= num6 (r + 1)).
    { rewrite num6_eq by lia. pose proof (Z.mod_pos_bound (r + 1) 2 ltac:(lia)). lia. }
    nia.
  - rewrite E. cbn [bind]. eexists. split; [reflexivity|exact P].
Qed.

(** ** primes *)
Lemma primes_correct n : exists l, primes n = Ret l /\ primes_upto n l.
Proof.
  unfold primes. rewrite PRIME_LIST_last. destruct (Z.ltb_spec n 999983) as [H|H].
  - eexists. split; [reflexivity|]. rewrite bisect_firstn by apply PRIME_LIST_sorted. split.
    + apply filter_sorted, PRIME_LIST_sorted.
    + intros p. rewrite filter_In, PRIME_LIST_In, Z.leb_le. intuition lia.
  - apply eratosthenes2_correct.
Qed.

(** ** pritchard *)
Lemma pritchard_inner_ok n f ps block : 1 <= n -> 2 <= f -> Z.of_nat (length block) = n + 1 ->
  StronglySorted Z.lt ps -> (forall p, In p ps -> prime p) ->
  exists block', pritchard_inner n f ps block = Ret block' /\ length block' = length block /\
    (forall j, 0 <= j -> getb block' j = true -> getb block j = true) /\
    (forall j, 0 <= j -> prime j -> getb block' j = getb block j) /\
    (forall p, In p ps -> p * f <= n -> (forall q, prime q -> (q | f) -> p <= q) ->
       getb block' (p * f) = false).
Proof.
  intros Hn Hf. revert block. induction ps as [|p ps IH]; intros block L HS HP; cbn [pritchard_inner].
  - exists block. repeat split; auto. intros p [].
  - inversion HS as [|? ? S1 S2]; subst. rewrite Forall_forall in S2.
    assert (Hp : prime p) by (apply HP; left; reflexivity). pose proof (prime_ge2 p Hp).
    destruct (Z.ltb_spec n (p * f)) as [Hlt|Hge].
    + exists block. repeat split; auto. intros q [<-|Hq] Hle; [lia|].
      specialize (S2 q Hq). nia.
    + destruct (pyset_getb block (p * f) false ltac:(nia)) as (b1 & -> & L1 & G1). cbn [bind].
      assert (Mono1 : forall j, 0 <= j -> getb b1 j = true -> getb block j = true).
      { intros j Hj. rewrite G1 by lia. destruct (j =? p * f); [discriminate|tauto]. }
      assert (Pr1 : forall j, 0 <= j -> prime j -> getb b1 j = getb block j).
      { intros j Hj Hpj. rewrite G1 by lia. destruct (Z.eqb_spec j (p * f)) as [->|]; [|reflexivity].
        exfalso. revert Hpj. apply prime_not_prime_mul; lia. }
      assert (C1 : getb b1 (p * f) = false) by (rewrite G1, Z.eqb_refl by nia; reflexivity).
      destruct (Z.eqb_spec (f mod p) 0) as [E|E].
      * exists b1. repeat split; auto. intros q [<-|Hq] Hle Hmin; [exact C1|].
        specialize (S2 q Hq). specialize (Hmin p Hp ltac:(apply Z.mod_divide; lia)). lia.
      * destruct (IH b1 ltac:(lia) S1 ltac:(intros; apply HP; right; assumption))
          as (b' & E' & L' & Mono & Pr & C).
        exists b'. split; [exact E'|]. split; [lia|]. split; [auto|]. split.
        -- intros j Hj Hpj. rewrite Pr, Pr1 by assumption. reflexivity.
        -- intros q [<-|Hq] Hle Hmin; [|apply C; auto].
           destruct (getb b' (p * f)) eqn:X; [|reflexivity].
           apply Mono in X; [congruence|nia].
Qed.

Lemma pritchard_correct n : exists l, pritchard n = Ret l /\ primes_upto n l.
Proof.
  unfold pritchard. destruct (Z.leb_spec n 1) as [H|H].
  { exists []. split; [reflexivity|apply primes_upto_1; exact H]. }
  destruct (isqrt_loop n ltac:(lia)) as (r & -> & R0 & R1 & _ & _). cbn [bind].
  destruct (primes_correct r) as (ps & -> & PS & PI). cbn [bind].
  destruct (pyset_getb (ones (n + 1)) 0 false) as (b0 & -> & L0 & G0); [rewrite ones_length; lia|].
  cbn [bind].
  destruct (pyset_getb b0 1 false) as (b1 & -> & L1 & G1); [rewrite L0, ones_length; lia|].
  cbn [bind].
  assert (L : Z.of_nat (length b1) = n + 1) by (rewrite L1, L0, ones_length; lia).
  assert (G : exists b, foldM (fun block f => pritchard_inner n f ps block) (zrange 2 (n / 2 + 1)) b1 = Ret b /\
    length b = length b1 /\
    (forall j, 0 <= j -> prime j -> getb b j = getb b1 j) /\
    (forall f p, In f (zrange 2 (n / 2 + 1)) -> In p ps -> p * f <= n ->
       (forall q, prime q -> (q | f) -> p <= q) -> getb b (p * f) = false)).
  { assert (Gen : forall fs b, length b = length b1 -> (forall f, In f fs -> 2 <= f) ->
      exists b', foldM (fun block f => pritchard_inner n f ps block) fs b = Ret b' /\
      length b' = length b1 /\
      (forall j, 0 <= j -> getb b' j = true -> getb b j = true) /\
      (forall j, 0 <= j -> prime j -> getb b' j = getb b j) /\
      (forall f p, In f fs -> In p ps -> p * f <= n ->
        (forall q, prime q -> (q | f) -> p <= q) -> getb b' (p * f) = false)).
    { induction fs as [|f fs IH]; intros b Lb Hfs.
      - exists b. cbn. repeat split; auto. intros f p [].
      - cbn [foldM]. assert (Hf : 2 <= f) by (apply Hfs; left; reflexivity).
        destruct (pritchard_inner_ok n f ps b ltac:(lia) Hf ltac:(lia) PS ltac:(intros p Hp; apply PI, Hp))
          as (b2 & -> & L2 & M2 & P2 & C2). cbn [bind].
        destruct (IH b2 ltac:(lia) ltac:(intros; apply Hfs; right; assumption))
          as (b3 & -> & L3 & M3 & P3 & C3).
        exists b3. split; [reflexivity|]. split; [lia|]. split; [auto|]. split.
        + intros j Hj Hpj. rewrite P3, P2 by assumption. reflexivity.
        + intros g p [<-|Hg] Hp Hle Hmin; [|apply (C3 g p); auto].
          destruct (getb b3 (p * f)) eqn:X; [|reflexivity].
          apply PI in Hp as Hp'. destruct Hp' as [Hp' _]. pose proof (prime_ge2 p Hp').
          apply M3 in X; [|nia]. rewrite C2 in X; auto. }
    destruct (Gen (zrange 2 (n / 2 + 1)) b1 eq_refl) as (b' & E' & L' & _ & P' & C').
    - intros f Hf. rewrite zrange_In in Hf. lia.
    - exists b'. tauto. }
  destruct G as (b & -> & Lb & Pb & Cb). cbn [bind].
  rewrite (filterM_ret _ (getb b)).
  2:{ intros x Hx. rewrite zrange_In in Hx. apply pyget_getb. lia. }
  eexists. split; [reflexivity|]. split; [apply filter_sorted, zrange_sorted|].
  intros p. rewrite filter_In, zrange_In. split.
  - intros [Hr E]. split; [|lia]. destruct (prime_dec p) as [Hp|Hc]; [exact Hp|exfalso].
    destruct (composite_split p ltac:(lia) Hc) as (q & f & Hq & Ep & Hqf & Hqq & Hmin).
    pose proof (prime_ge2 q Hq).
    rewrite Ep in E. rewrite Cb in E; [discriminate| | |lia|].
    + rewrite zrange_In. assert (f <= n / 2) by (apply Z.div_le_lower_bound; nia). lia.
    + apply PI. split; [exact Hq|]. nia.
    + intros s Hs D. apply Hmin; [exact Hs|]. rewrite Ep. apply Z.divide_mul_r. exact D.
  - intros [Hp Hle]. pose proof (prime_ge2 p Hp). split; [lia|].
    rewrite Pb by (lia || assumption). rewrite G1, G0 by lia.
    destruct (Z.eqb_spec p 1); [lia|]. destruct (Z.eqb_spec p 0); [lia|]. apply ones_get. lia.
Qed.
