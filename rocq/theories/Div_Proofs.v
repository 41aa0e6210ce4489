(** * Divisors from factorizations *)
From Coq Require Import ZArith List Bool Lia Znumtheory Sorted Permutation.
From Verif Require Import Base Lists Lists2 NT NT_Euler Factor_Model Factor_Spec Factor_Proofs.
Import ListNotations.
Open Scope Z_scope.

Lemma divide_mul2 a b c d : (a | b) -> (c | d) -> (a * c | b * d).
Proof. intros [x ->] [y ->]. exists (x * y). ring. Qed.

Lemma factorization_cons n p e l : factorization n ((p, e) :: l) ->
  prime p /\ 1 <= e /\ n = p ^ e * fac_value l /\ factorization (fac_value l) l /\
  (forall q k, In (q, k) l -> p < q).
Proof.
  intros (S & A & V). inversion S as [|? ? S1 S2]; subst.
  destruct (A p e (or_introl eq_refl)) as [Hp He]. split; [exact Hp|]. split; [exact He|].
  split; [reflexivity|]. split.
  - split; [exact S1|]. split; [|reflexivity]. intros q k H. apply A. right. exact H.
  - intros q k H. rewrite Forall_forall in S2. apply (S2 _ H).
Qed.

Lemma fac_value_pos (P : Z -> Prop) l : (forall p e, In (p, e) l -> 2 <= p /\ 1 <= e) -> 1 <= fac_value l.
Proof.
  induction l as [|[p e] l IH]; intros H; [unfold fac_value; cbn; lia|].
  rewrite fac_value_cons. destruct (H p e (or_introl eq_refl)).
  assert (1 <= fac_value l) by (apply IH; intros q k Hq; apply H; right; exact Hq).
  assert (0 < p ^ e) by (apply Z.pow_pos_nonneg; lia). nia.
Qed.

Lemma factorization_pos n l : factorization n l -> 1 <= n.
Proof.
  intros (S & A & V). rewrite <- V. apply (fac_value_pos prime). intros p e H. apply A in H as [H ?].
  apply prime_ge2 in H. auto.
Qed.

(** A prime divides the value of a prime factorization iff it is a base. *)
Lemma factorization_prime_divisor n l q : factorization n l -> prime q ->
  ((q | n) <-> In q (map fst l)).
Proof.
  revert n. induction l as [|[p e] l IH]; intros n F Hq.
  - destruct F as (_ & _ & V). cbn in V. subst n. split; [|intros []].
    intros D. apply Z.divide_1_r in D. pose proof (prime_ge2 q Hq). lia.
  - apply factorization_cons in F as (Hp & He & -> & F & Lt). cbn [map fst In]. rewrite <- (IH _ F Hq).
    split.
    + intros D. apply prime_mult in D; [|exact Hq]. destruct D as [D|D]; [|right; exact D].
      left. symmetry. apply (prime_pow_divide q p e); [exact Hq|exact Hp|lia|exact D].
    + intros [<-|D]; [|apply Z.divide_mul_r, D]. apply Z.divide_mul_l.
      replace e with (1 + (e - 1)) by lia. rewrite Z.pow_add_r by lia. apply Z.divide_mul_l. rewrite Z.pow_1_r. apply Z.divide_refl.
Qed.

Lemma coprime_rest p l : prime p -> factorization (fac_value l) l -> (forall q k, In (q, k) l -> p < q) ->
  Z.gcd p (fac_value l) = 1.
Proof.
  intros Hp F Lt. apply Zgcd_1_rel_prime, prime_rel_prime; [exact Hp|]. intros D.
  apply (factorization_prime_divisor _ l p F Hp) in D. apply in_map_iff in D as ([q k] & E & H). cbn in E.
  specialize (Lt q k H). lia.
Qed.

(** Divisors of [p^e * m] with [p] prime, [gcd p m = 1]. *)
Lemma divisor_split p e m d : prime p -> 0 <= e -> Z.gcd p m = 1 -> 0 < d -> (d | p ^ e * m) ->
  exists i d', 0 <= i <= e /\ d = p ^ i * d' /\ (d' | m) /\ 0 < d'.
Proof.
  intros Hp He G Hd D. pose proof (prime_ge2 p Hp) as Hp2.
  set (g := Z.gcd d (p ^ e)).
  assert (Hg : (g | p ^ e)) by apply Z.gcd_divide_r.
  assert (Hgp : 0 < g).
  { pose proof (Z.gcd_nonneg d (p ^ e)). assert (g <> 0); [|unfold g in *; lia]. intros X. apply Z.gcd_eq_0_l in X. lia. }
  destruct (divides_prime_power p e g Hp He) as (i & Hi & Eg); [lia|exact Hg|].
  assert (Hgd : (g | d)) by apply Z.gcd_divide_l. destruct Hgd as [d' Ed].
  destruct Hg as [c Ec].
  exists i, d'. split; [exact Hi|]. split; [rewrite Ed, Eg; ring|].
  assert (Hd' : 0 < d') by nia.
  split; [|exact Hd'].
  assert (Gc : Z.gcd d' c = 1).
  { assert (X : Z.gcd (g * d') (g * c) = g * Z.gcd d' c) by (rewrite Z.gcd_mul_mono_l; rewrite Z.abs_eq; lia).
    replace (g * d') with d in X by lia. replace (g * c) with (p ^ e) in X by lia. fold g in X. nia. }
  assert (D' : (d' | c * m)).
  { destruct D as [k Ek]. exists k. rewrite Ec, Ed in Ek. 
    apply (Z.mul_cancel_r _ _ g); [lia|]. lia. }
  apply Z.gauss with c; assumption.
Qed.

Lemma tuple_product_cons p ps i t : tuple_product (p :: ps) (i :: t) = p ^ i * tuple_product ps t.
Proof.
  unfold tuple_product. cbn [combine fold_left].
  assert (X : forall l a, fold_left (fun prod '(p, e) => prod * p ^ e) l a =
    a * fold_left (fun prod '(p, e) => prod * p ^ e) l 1).
  { induction l as [|[q e] l IH]; intros a; cbn [fold_left]; [ring|]. rewrite IH, (IH (1 * q ^ e)). ring. }
  rewrite X. ring.
Qed.

(** The list of products of the exponent tuples. *)
Definition fac_divisors (l : list (Z * Z)) : list Z := map (tuple_product (map fst l)) (exp_tuples l).

Lemma fac_divisors_cons p e l : fac_divisors ((p, e) :: l) =
  flat_map (fun i => map (fun d => p ^ i * d) (fac_divisors l)) (zrange 0 (e + 1)).
Proof.
  unfold fac_divisors. cbn [exp_tuples map fst]. rewrite !flat_map_concat_map, concat_map, map_map.
  f_equal. apply map_ext. intros i. rewrite !map_map. apply map_ext. intros t. apply tuple_product_cons.
Qed.

Theorem fac_divisors_spec n l : factorization n l ->
  NoDup (fac_divisors l) /\ forall d, In d (fac_divisors l) <-> 0 < d /\ (d | n).
Proof.
  revert n. induction l as [|[p e] l IH]; intros n F.
  - destruct F as (_ & _ & V). cbn in V. subst n. split; [repeat constructor; intros []|].
    intros d. cbn. split.
    + intros [<-|[]]. split; [unfold tuple_product; cbn; lia|apply Z.divide_1_l].
    + intros [H D]. apply Z.divide_1_r_nonneg in D; [|lia]. left. symmetry. exact D.
  - apply factorization_cons in F as (Hp & He & -> & F & Lt). destruct (IH _ F) as [N I].
    pose proof (prime_ge2 p Hp) as Hp2. pose proof (coprime_rest p l Hp F Lt) as G.
    pose proof (factorization_pos _ _ F) as Hm.
    assert (ND : forall d, (d | fac_value l) -> ~ (p | d)).
    { intros d D X. assert (Y : (p | Z.gcd p (fac_value l))).
      { apply Z.gcd_greatest; [apply Z.divide_refl|]. apply Z.divide_trans with d; assumption. }
      rewrite G in Y. apply Z.divide_1_r in Y. lia. }
    assert (Inj : forall i j d d', 0 <= i -> 0 <= j -> (d | fac_value l) -> (d' | fac_value l) ->
       p ^ i * d = p ^ j * d' -> i = j).
    { assert (W : forall i j d d', 0 <= i < j -> (d | fac_value l) -> p ^ i * d = p ^ j * d' -> False).
      { intros i j d d' Hij D E. apply (ND d D). exists (p ^ (j - i - 1) * d').
        replace j with (i + ((j - i - 1) + 1)) in E by lia. rewrite !Z.pow_add_r, Z.pow_1_r in E by lia.
        assert (0 < p ^ i) by (apply Z.pow_pos_nonneg; lia).
        apply (Z.mul_cancel_l _ _ (p ^ i)); [lia|]. lia. }
      intros i j d d' Hi Hj D D' E. destruct (Z.lt_trichotomy i j) as [L|[L|L]]; [|exact L|]; exfalso.
      - apply (W i j d d'); auto.
      - apply (W j i d' d); auto. }
    rewrite fac_divisors_cons. split.
    + apply NoDup_flat_map; [apply zrange_NoDup| |].
      * intros i Hi. apply zrange_In in Hi. apply NoDup_map_inj; [exact N|]. intros x y _ _ E.
        assert (0 < p ^ i) by (apply Z.pow_pos_nonneg; lia). apply (Z.mul_cancel_l _ _ (p ^ i)); lia.
      * intros i j z Hi Hj Hzi Hzj. apply zrange_In in Hi, Hj.
        apply in_map_iff in Hzi as (d & E & Hd). apply in_map_iff in Hzj as (d' & E' & Hd').
        apply I in Hd as [_ Hd]. apply I in Hd' as [_ Hd']. apply (Inj i j d d'); try lia; assumption.
    + intros d. rewrite in_flat_map. split.
      * intros (i & Hi & H). apply zrange_In in Hi. apply in_map_iff in H as (d' & <- & Hd'). apply I in Hd' as [P D].
        split; [assert (0 < p ^ i) by (apply Z.pow_pos_nonneg; lia); nia|].
        apply divide_mul2; [|exact D].
        exists (p ^ (e - i)). rewrite <- Z.pow_add_r by lia. f_equal. lia.
      * intros [P D]. destruct (divisor_split p e (fac_value l) d Hp ltac:(lia) G P D) as (i & d' & Hi & -> & D' & P').
        exists i. split; [apply zrange_In; lia|]. apply in_map_iff. exists d'. split; [reflexivity|]. apply I. auto.
Qed.

(** ** Uniqueness *)
Lemma factorization_exponent n l p e : factorization n l -> In (p, e) l ->
  (p ^ e | n) /\ ~ (p ^ (e + 1) | n).
Proof.
  revert n. induction l as [|[q k] l IH]; intros n F Hin; [destruct Hin|].
  apply factorization_cons in F as (Hq & Hk & -> & F & Lt). pose proof (coprime_rest q l Hq F Lt) as G.
  pose proof (prime_ge2 q Hq). destruct Hin as [E|Hin].
  - injection E as -> ->. split; [apply Z.divide_mul_l, Z.divide_refl|].
    rewrite Z.pow_add_r, Z.pow_1_r by lia. intros D.
    assert (D' : (p | fac_value l)).
    { destruct D as [c Ec]. exists c. assert (0 < p ^ e) by (apply Z.pow_pos_nonneg; lia).
      apply (Z.mul_cancel_l _ _ (p ^ e)); lia. }
    assert (Y : (p | Z.gcd p (fac_value l))) by (apply Z.gcd_greatest; [apply Z.divide_refl|exact D']).
    rewrite G in Y. apply Z.divide_1_r in Y. lia.
  - destruct (IH _ F Hin) as [D ND]. split; [apply Z.divide_mul_r, D|]. intros X. apply ND.
    assert (Hp : prime p /\ 1 <= e) by (destruct F as (_ & A & _); apply A; exact Hin). destruct Hp as [Hp He].
    specialize (Lt p e Hin).
    apply Z.gauss with (q ^ k); [exact X|]. rewrite Z.gcd_comm. apply gcd_1_pow; [lia|]. rewrite Z.gcd_comm.
    apply gcd_1_pow; [lia|]. rewrite Z.gcd_comm. apply prime_coprime; [exact Hq|exact Hp|lia].
Qed.

Lemma factorization_In n l p e : factorization n l ->
  (In (p, e) l <-> prime p /\ 1 <= e /\ (p ^ e | n) /\ ~ (p ^ (e + 1) | n)).
Proof.
  intros F. split.
  - intros H. pose proof F as (_ & A & _). destruct (A p e H). split; [assumption|]. split; [assumption|].
    exact (factorization_exponent n l p e F H).
  - intros (Hp & He & D & ND). assert (Dp : (p | n)).
    { apply Z.divide_trans with (p ^ e); [|exact D]. replace e with (1 + (e - 1)) by lia.
      rewrite Z.pow_add_r, Z.pow_1_r by lia. apply Z.divide_mul_l, Z.divide_refl. }
    apply (factorization_prime_divisor n l p F Hp) in Dp. apply in_map_iff in Dp as ([q k] & E & H). cbn in E. subst q.
    destruct (factorization_exponent n l p k F H) as [D' ND'].
    pose proof F as (_ & A & _). destruct (A p k H) as [_ Hk].
    assert (k = e); [|subst; exact H].
    assert (W : forall i j, 1 <= i < j -> (p ^ j | n) -> (p ^ (i + 1) | n)).
    { intros i j Hij X. apply Z.divide_trans with (p ^ j); [|exact X]. exists (p ^ (j - (i + 1))).
      rewrite <- Z.pow_add_r by lia. f_equal. lia. }
    destruct (Z.lt_trichotomy k e) as [L|[L|L]]; [|exact L|]; exfalso.
    + apply ND'. apply (W k e); [lia|exact D].
    + apply ND. apply (W e k); [lia|exact D'].
Qed.

Lemma ksorted_ext (l l' : list (Z * Z)) :
  StronglySorted (fun a b => fst a < fst b) l -> StronglySorted (fun a b => fst a < fst b) l' ->
  (forall x, In x l <-> In x l') -> l = l'.
Proof.
  revert l'. induction l as [|x l IH]; intros [|y l'] S S' H.
  - reflexivity.
  - exfalso. apply (H y). left. reflexivity.
  - exfalso. apply (H x). left. reflexivity.
  - inversion S as [|? ? S1 S2]; subst. inversion S' as [|? ? S1' S2']; subst.
    rewrite Forall_forall in S2, S2'.
    assert (E : x = y).
    { destruct (proj1 (H x) (or_introl eq_refl)) as [E|E]; [auto|].
      destruct (proj2 (H y) (or_introl eq_refl)) as [E'|E']; [auto|].
      specialize (S2 _ E'). specialize (S2' _ E). lia. }
    subst y. f_equal. apply IH; [exact S1|exact S1'|]. intros z. split; intros Hz.
    + destruct (proj1 (H z) (or_intror Hz)) as [E|E]; [|exact E]. subst z. specialize (S2 _ Hz). lia.
    + destruct (proj2 (H z) (or_intror Hz)) as [E|E]; [|exact E]. subst z. specialize (S2' _ Hz). lia.
Qed.

Theorem factorization_unique n l l' : factorization n l -> factorization n l' -> l = l'.
Proof.
  intros F F'. apply ksorted_ext; [apply F|apply F'|]. intros [p e].
  rewrite (factorization_In n l p e F), (factorization_In n l' p e F'). reflexivity.
Qed.
