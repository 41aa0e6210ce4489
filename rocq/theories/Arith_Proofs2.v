(** * Factorial and primorial *)
From Coq Require Import ZArith List Bool Lia Znumtheory Sorted Permutation.
From Verif Require Import Base Lists Lists2 NT NT_Euler Core_Model Core_Spec Core_Proofs Core_Proofs2
  Primes_Spec Sieves_Model Sieves_Proofs2 Div_Proofs2 Arith_Model Arith_Spec.
Import ListNotations.
Open Scope Z_scope.

(** Product of the odd numbers up to [m]. *)
Definition oddprod (m : Z) : Z := zprod (filter Z.odd (zrange 1 (m + 1))).

Lemma fact_step n : 0 <= n -> fact_spec (n + 1) = fact_spec n * (n + 1).
Proof.
  intros H. unfold fact_spec. rewrite (zrange_snoc 1 (n + 1)) by lia. rewrite zprod_app, zprod_cons, zprod_nil. ring.
Qed.

Lemma oddprod_step n : 0 <= n -> oddprod (n + 1) = oddprod n * (if Z.odd (n + 1) then n + 1 else 1).
Proof.
  intros H. unfold oddprod. rewrite (zrange_snoc 1 (n + 1)) by lia. rewrite filter_app, zprod_app. cbn [filter].
  destruct (Z.odd (n + 1)); rewrite ?zprod_cons, zprod_nil; ring.
Qed.

(** [n! = 2^(n/2) (n/2)! * (1 3 5 ... )]. *)
Lemma fact_half n : 0 <= n -> fact_spec n = 2 ^ (n / 2) * fact_spec (n / 2) * oddprod n.
Proof.
  intros H. pattern n. apply natlike_ind; [reflexivity| |exact H]. clear n H. intros n Hn IH.
  unfold Z.succ. rewrite fact_step, IH, oddprod_step by lia.
  destruct (Z.odd (n + 1)) eqn:O.
  - assert (E : (n + 1) / 2 = n / 2).
    { apply Z.odd_spec in O as [c Ec]. replace n with (c * 2) by lia. rewrite Z.div_mul by lia.
      replace (c * 2 + 1) with (1 + c * 2) by lia. rewrite Z.div_add by lia. reflexivity. }
    rewrite E. ring.
  - assert (E : (n + 1) / 2 = n / 2 + 1 /\ n + 1 = 2 * (n / 2 + 1)).
    { rewrite <- Z.negb_even in O. apply negb_false_iff, Z.even_spec in O as [c Ec].
      assert (X : n / 2 = c - 1).
      { symmetry. apply Z.div_unique with 1; lia. }
      rewrite X, Ec. rewrite Z.mul_comm, Z.div_mul by lia. lia. }
    destruct E as [-> E]. rewrite fact_step by (apply Z.div_pos; lia).
    rewrite Z.pow_add_r, Z.pow_1_r by (try apply Z.div_pos; lia). rewrite E at 1. ring.
Qed.

Lemma oddprod_pos m : 0 < oddprod m.
Proof.
  unfold oddprod. assert (G : forall l, (forall x, In x l -> 0 < x) -> 0 < zprod l).
  { induction l as [|x l IH]; intros A; [rewrite zprod_nil; lia|]. rewrite zprod_cons.
    assert (0 < x) by (apply A; left; reflexivity). assert (0 < zprod l) by (apply IH; intros y Hy; apply A; right; exact Hy). nia. }
  apply G. intros x Hx. apply filter_In in Hx as [Hx _]. apply zrange_In in Hx. lia.
Qed.

(** The inner product of the code. *)
Lemma partial_ok n k : 0 <= n -> 1 <= k ->
  let lower := Z.shiftr n k + 1 in
  let upper := Z.shiftr n (k - 1) + 1 in
  let lower := if lower mod 2 =? 0 then lower + 1 else lower in
  fold_left Z.mul (zrange_step lower upper 2) 1 * oddprod (Z.shiftr n k) = oddprod (Z.shiftr n (k - 1)).
Proof.
  intros Hn Hk lower upper lower'. rewrite fold_mul, Z.mul_1_l.
  set (a := Z.shiftr n k) in *. set (b := Z.shiftr n (k - 1)) in *.
  assert (Hab : 0 <= a <= b).
  { unfold a, b. rewrite !Z.shiftr_div_pow2 by lia.
    assert (0 < 2 ^ (k - 1)) by (apply Z.pow_pos_nonneg; lia). assert (E : 2 ^ k = 2 ^ (k - 1) * 2).
    { replace k with ((k - 1) + 1) at 1 by lia. rewrite Z.pow_add_r, Z.pow_1_r by lia. reflexivity. }
    rewrite E, <- Z.div_div by lia. assert (0 <= n / 2 ^ (k - 1)) by (apply Z.div_pos; lia).
    split; [apply Z.div_pos; lia|]. apply Z.div_le_upper_bound; lia. }
  assert (Lo : (lower' = a + 1 \/ lower' = a + 2) /\ Z.odd lower' = true /\ (Z.odd (a + 1) = true -> lower' = a + 1)).
  { unfold lower', lower. rewrite Zmod_even. destruct (Z.even (a + 1)) eqn:Ev; cbn.
    - split; [right; lia|]. replace (a + 1 + 1) with (Z.succ (a + 1)) by lia. rewrite Z.odd_succ. split; [exact Ev|].
      intros O. rewrite <- Z.negb_even, Ev in O. discriminate.
    - split; [left; reflexivity|]. rewrite <- Z.negb_even, Ev. auto. }
  clearbody lower'. destruct Lo as (L1 & L2 & L3).
  assert (P : Permutation (zrange_step lower' upper 2) (filter Z.odd (zrange (a + 1) (b + 1)))).
  { apply NoDup_same_perm; [apply zrange_step_NoDup; lia|apply NoDup_filter, zrange_NoDup|].
    intros x. rewrite zrange_step_In by lia. rewrite filter_In, zrange_In. unfold upper.
    apply Z.odd_spec in L2 as L2'. destruct L2' as [c Ec]. split.
    - intros [Hx [d Ed]]. split; [lia|]. apply Z.odd_spec. exists (c + d). lia.
    - intros [Hx O]. assert (lower' <= x).
      { destruct L1 as [->|L1]; [lia|]. destruct (Z.eq_dec x (a + 1)) as [->|]; [rewrite (L3 O); lia|lia]. }
      split; [lia|]. apply Z.odd_spec in O as [d Ed]. exists (d - c). lia. }
  rewrite (zprod_perm _ _ P). unfold oddprod.
  rewrite (zrange_app 1 (a + 1) (b + 1)) by lia. rewrite filter_app, zprod_app. ring.
Qed.

(** [popcount]. *)
Lemma popcount_half n : 0 < n -> popcount n = popcount (n / 2) + n mod 2.
Proof.
  intros Hn. assert (0 <= n / 2) by (apply Z.div_pos; lia).
  rewrite <- !pcz_popcount by lia. pose proof (Z.div_mod n 2 ltac:(lia)) as E.
  pose proof (Z.mod_pos_bound n 2 ltac:(lia)).
  assert (n mod 2 = 0 \/ n mod 2 = 1) as [M|M] by lia; rewrite M in *.
  - rewrite Z.add_0_r in E. rewrite E at 1. rewrite pcz_double by lia. lia.
  - rewrite E at 1. rewrite pcz_succ_double by lia. lia.
Qed.

Lemma popcount_le n : 0 <= n -> popcount n <= n.
Proof.
  intros Hn. revert n Hn. apply (Zlt_0_ind (fun n => popcount n <= n)). intros n IH Hn.
  destruct (Z.eq_dec n 0) as [->|]; [cbn; lia|].
  rewrite popcount_half by lia. pose proof (Z.div_mod n 2 ltac:(lia)). pose proof (Z.mod_pos_bound n 2 ltac:(lia)).
  assert (0 <= n / 2 < n) by (split; [apply Z.div_pos; lia|apply Z.div_lt; lia]). specialize (IH (n / 2) ltac:(lia)). lia.
Qed.

(** [n! = 2^(n - popcount n) * O(n) O(n/2) O(n/4) ...]. *)
Lemma fact_odd n : 0 < n ->
  fact_spec n = 2 ^ (n - popcount n) * zprod (map (fun i => oddprod (Z.shiftr n i)) (zrange 0 (bit_length n))).
Proof.
  intros Hn. assert (H0 : 0 <= n) by lia. revert n H0 Hn.
  apply (Zlt_0_ind (fun n => 0 < n -> fact_spec n = 2 ^ (n - popcount n) *
    zprod (map (fun i => oddprod (Z.shiftr n i)) (zrange 0 (bit_length n))))). intros n IH H0 Hn.
  destruct (Z.eq_dec n 1) as [->|]; [reflexivity|].
  assert (Hh : 0 < n / 2 < n) by (split; [apply Z.div_str_pos; lia|apply Z.div_lt; lia]).
  specialize (IH (n / 2) ltac:(lia) ltac:(lia)).
  rewrite fact_half, IH by lia. pose proof (bit_length_half n Hn) as B.
  assert (BL : 0 <= bit_length (n / 2)) by apply bit_length_nonneg.
  rewrite (zrange_cons 0 (bit_length n)) by lia. cbn [map]. rewrite zprod_cons.
  replace (Z.shiftr n 0) with n by (symmetry; apply Z.shiftr_0_r).
  assert (E : map (fun i => oddprod (Z.shiftr n i)) (zrange (0 + 1) (bit_length n)) =
      map (fun i => oddprod (Z.shiftr (n / 2) i)) (zrange 0 (bit_length (n / 2)))).
  { replace (bit_length n) with (bit_length (n / 2) + 1) by lia. rewrite zrange_shift, map_map. apply map_ext_in.
    intros i Hi. apply zrange_In in Hi. f_equal. rewrite <- shiftr1, Z.shiftr_shiftr by lia. f_equal. lia. }
  rewrite E. rewrite (popcount_half n Hn). pose proof (popcount_le (n / 2) ltac:(lia)).
  pose proof (Z.div_mod n 2 ltac:(lia)) as D. pose proof (Z.mod_pos_bound n 2 ltac:(lia)).
  replace (n - (popcount (n / 2) + n mod 2)) with (n / 2 + (n / 2 - popcount (n / 2))) by lia.
  rewrite (Z.pow_add_r 2 (n / 2)) by lia. ring.
Qed.

(** Telescoping of the outer loop. *)
Lemma telescope (O part : Z -> Z) m : (forall k, 0 < O k) -> 0 <= m ->
  (forall k, 1 <= k <= m -> part k * O k = O (k - 1)) ->
  zprod (map (fun k => part k ^ k) (zrange 1 (m + 1))) * O m ^ m = zprod (map O (zrange 0 m)).
Proof.
  intros HO Hm. revert m Hm. apply (natlike_ind (fun m => (forall k, 1 <= k <= m -> part k * O k = O (k - 1)) ->
    zprod (map (fun k => part k ^ k) (zrange 1 (m + 1))) * O m ^ m = zprod (map O (zrange 0 m)))).
  - intros _. reflexivity.
  - intros m Hm IH H. unfold Z.succ in *. rewrite (zrange_snoc 1 (m + 1)), (zrange_snoc 0 m) by lia.
    rewrite !map_app, !zprod_app. cbn [map]. rewrite !zprod_cons, !zprod_nil.
    rewrite <- IH by (intros k Hk; apply H; lia).
    assert (E : part (m + 1) * O (m + 1) = O m) by (rewrite H by lia; f_equal; lia).
    rewrite <- E. rewrite !Z.pow_mul_l, !Z.pow_add_r, !Z.pow_1_r by lia. ring.
Qed.

Theorem factorial_correct n : 0 <= n -> factorial n = Ret (fact_spec n).
Proof.
  intros Hn. unfold factorial. destruct (Z.ltb_spec n 0); [lia|].
  destruct (Z.eqb_spec n 0) as [->|]; [reflexivity|]. destruct (Z.eqb_spec n 1) as [->|]; [reflexivity|]. cbn [orb].
  rewrite bit_count_correct. cbn [bind]. f_equal.
  set (part := fun k => let lower := Z.shiftr n k + 1 in
      let upper := Z.shiftr n (k - 1) + 1 in
      let lower := if lower mod 2 =? 0 then lower + 1 else lower in
      fold_left Z.mul (zrange_step lower upper 2) 1).
  change (fold_left _ (zrange 1 (bit_length n)) 1) with
    (fold_left (fun prod k => prod * part k ^ k) (zrange 1 (bit_length n)) 1).
  assert (X : forall l a, fold_left (fun prod k => prod * part k ^ k) l a = a * zprod (map (fun k => part k ^ k) l)).
  { induction l as [|x l IH]; intros a; cbn [fold_left map]; [rewrite zprod_nil; ring|]. rewrite IH, zprod_cons. ring. }
  rewrite X, Z.mul_1_l. pose proof (popcount_le n Hn).
  rewrite Z.shiftl_mul_pow2 by lia. rewrite fact_odd by lia. rewrite Z.mul_comm. f_equal.
  rewrite bit_length_pos by lia. pose proof (Z.log2_nonneg n) as L.
  pose proof (telescope (fun i => oddprod (Z.shiftr n i)) part (Z.log2 n) (fun k => oddprod_pos _) L) as T.
  rewrite (zrange_snoc 0 (Z.log2 n)) by lia. rewrite map_app, zprod_app. cbn [map]. rewrite zprod_cons, zprod_nil.
  assert (E1 : Z.shiftr n (Z.log2 n) = 1).
  { rewrite Z.shiftr_div_pow2 by lia. pose proof (Z.log2_spec n ltac:(lia)) as S.
    rewrite Z.pow_succ_r in S by lia. symmetry. apply Z.div_unique with (n - 2 ^ Z.log2 n); lia. }
  cbv beta in T. rewrite E1 in *. change (oddprod 1) with 1 in *. rewrite Z.pow_1_l in T by lia.
  rewrite !Z.mul_1_r in *. apply T. intros k Hk. apply partial_ok; lia.
Qed.

Theorem factorial_error n : n < 0 -> factorial n = Raise ValueError.
Proof. intros H. unfold factorial. destruct (Z.ltb_spec n 0); [reflexivity|lia]. Qed.

Theorem primorial_correct fb n : 1 <= n < 78498 ->
  exists l, first_primes n l /\ primorial fb n = Ret (zprod l).
Proof.
  intros Hn. unfold primorial. destruct (Z.leb_spec n 0); [lia|].
  destruct (primes_first_n_table fb n ltac:(lia)) as (l & E & F). exists l. split; [exact F|].
  rewrite E. cbn [bind]. rewrite fold_mul, Z.mul_1_l. reflexivity.
Qed.

Theorem primorial_large fb n l : 78498 <= n -> primes_upto (fb n) l -> n <= Z.of_nat (length l) ->
  exists l', first_primes n l' /\ primorial fb n = Ret (zprod l').
Proof.
  intros Hn P L. unfold primorial. destruct (Z.leb_spec n 0); [lia|].
  destruct (primes_first_n_large fb n l Hn P L) as (l' & E & F). exists l'. split; [exact F|].
  rewrite E. cbn [bind]. rewrite fold_mul, Z.mul_1_l. reflexivity.
Qed.
