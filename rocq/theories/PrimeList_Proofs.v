(** * The shipped prime table is complete and correct *)
From Coq Require Import ZArith List Lia Znumtheory Bool Sorted MSetPositive PArith.
From Verif Require Import Base Lists NT PrimeList_Data.
Import ListNotations.
Open Scope Z_scope.

Definition small : list Z := Eval vm_compute in firstn 168 PRIME_LIST.

Fixpoint increasing (l : list Z) : bool :=
  match l with
  | a :: t => match t with b :: _ => a <? b | [] => true end && increasing t
  | [] => true
  end.

Lemma increasing_sorted l : increasing l = true -> StronglySorted Z.lt l.
Proof.
  intros H. apply Sorted_StronglySorted; [intros x y z; lia|].
  induction l as [|a l IH]; [constructor|]. simpl in H. apply andb_true_iff in H as [H1 H2].
  constructor; [auto|]. destruct l as [|b l]; constructor. apply Z.ltb_lt. exact H1.
Qed.

(** Bootstrapping: the 168 small primes hit every number in 2..1000. *)
Lemma small_sorted : StronglySorted Z.lt small.
Proof. apply increasing_sorted. vm_compute. reflexivity. Qed.

Lemma small_ge2 : forall p, In p small -> 2 <= p.
Proof.
  assert (H : forallb (fun q => 2 <=? q) small = true) by (vm_compute; reflexivity).
  rewrite forallb_forall in H. intros p Hp. apply Z.leb_le, H, Hp.
Qed.

Lemma small_hits : forall d, 2 <= d <= 1000 -> exists q, In q small /\ (q | d).
Proof.
  assert (H : forallb (fun d => existsb (fun q => d mod q =? 0) small) (zrange 2 1001) = true)
    by (vm_compute; reflexivity).
  rewrite forallb_forall in H. intros d Hd.
  specialize (H d). rewrite zrange_In in H. specialize (H ltac:(lia)).
  apply existsb_exists in H as (q & Hq & E). exists q. split; [exact Hq|].
  apply Z.eqb_eq in E. apply Z.mod_divide; [pose proof (small_ge2 q Hq); lia|exact E].
Qed.



(** Checker: walk over the numbers coprime to 6 (5, 7, 11, 13, ...), after
    crossing out the multiples [p*m >= p*p], [m] coprime to 6, of the small primes. *)
Fixpoint cross (k : nat) (p m : positive) (s : PositiveSet.t) : PositiveSet.t :=
  match k with
  | O => s
  | S k' => cross k' p (m + p)%positive (PositiveSet.add m s)
  end.

(** all [m + i * p <= N] *)
Definition cross_all (N p m : Z) (s : PositiveSet.t) : PositiveSet.t :=
  cross (Z.to_nat ((N - m) / p + 1)) (Z.to_pos p) (Z.to_pos m) s.

Definition sieve (N : Z) (ps : list Z) : PositiveSet.t :=
  fold_left (fun s p => cross_all N (6 * p) (p * p)
                          (cross_all N (6 * p) (p * (p + if p mod 6 =? 1 then 4 else 2)) s))
            ps PositiveSet.empty.

Fixpoint walk (s : PositiveSet.t) (k : nat) (n d : Z) (l : list Z) : bool :=
  match k with
  | O => match l with [] => true | _ => false end
  | S k' =>
      match l with
      | x :: l' => if n =? x then negb (PositiveSet.mem (Z.to_pos n) s) && walk s k' (n + d) (6 - d) l'
                   else PositiveSet.mem (Z.to_pos n) s && walk s k' (n + d) (6 - d) l
      | [] => PositiveSet.mem (Z.to_pos n) s && walk s k' (n + d) (6 - d) []
      end
  end.

Definition small5 : list Z := Eval vm_compute in skipn 2 small.
Lemma small_eq : small = 2 :: 3 :: small5.
Proof. reflexivity. Qed.


Lemma cross_In k : forall p m s x,
  PositiveSet.In x (cross k p m s) <->
  PositiveSet.In x s \/ exists i, 0 <= i < Z.of_nat k /\ Zpos x = Zpos m + i * Zpos p.
Proof.
  induction k as [|k IH]; intros p m s x; cbn [cross].
  - split; [tauto|]. intros [H|(i & Hi & _)]; [exact H|lia].
  - rewrite IH, PositiveSet.add_spec. split.
    + intros [[->|H]|(i & Hi & E)]; [right; exists 0; lia|tauto|].
      right. exists (i + 1). split; [lia|]. rewrite Pos2Z.inj_add in E. lia.
    + intros [H|(i & Hi & E)]; [tauto|].
      destruct (Z.eq_dec i 0) as [->|Hne].
      * left. left. lia.
      * right. exists (i - 1). split; [lia|]. rewrite Pos2Z.inj_add. lia.
Qed.

Lemma cross_all_In N p m s x : 0 < p -> 0 < m -> Zpos x <= N ->
  (PositiveSet.In x (cross_all N p m s) <->
   PositiveSet.In x s \/ exists i, 0 <= i /\ Zpos x = m + i * p).
Proof.
  intros Hp Hm Hx. unfold cross_all. rewrite cross_In, !Z2Pos.id by lia.
  split; (intros [H|(i & Hi & E)]; [left; exact H|right; exists i; split; [|exact E]]); [lia|].
  assert (i <= (N - m) / p) by (apply Z.div_le_lower_bound; lia). lia.
Qed.

(** [x] is crossed out exactly when it is [p*p + 6*p*i] or [p*p' + 6*p*i]. *)
Definition other (p : Z) : Z := p + if p mod 6 =? 1 then 4 else 2.

Lemma sieve_In N ps x : (forall p, In p ps -> 2 <= p) -> Zpos x <= N ->
  (PositiveSet.In x (sieve N ps) <->
   exists p i, In p ps /\ 0 <= i /\ (Zpos x = p * p + i * (6 * p) \/ Zpos x = p * other p + i * (6 * p))).
Proof.
  intros Hps Hx. unfold sieve.
  set (f := fun s p => _).
  assert (G : forall s, PositiveSet.In x (fold_left f ps s) <->
      PositiveSet.In x s \/ exists p i, In p ps /\ 0 <= i /\
      (Zpos x = p * p + i * (6 * p) \/ Zpos x = p * other p + i * (6 * p))).
  { revert Hps. induction ps as [|p ps IH]; intros Hps s; cbn [fold_left].
    - split; [tauto|]. intros [H|(p & i & [] & _)]; exact H.
    - assert (Hp : 2 <= p) by (apply Hps; left; reflexivity).
      rewrite IH by (intros q Hq; apply Hps; right; exact Hq). unfold f at 1.
      fold (other p).
      assert (2 <= other p) by (unfold other; destruct (p mod 6 =? 1); lia).
      rewrite cross_all_In by nia. rewrite cross_all_In by nia. split.
      + intros [[[H1|(i & H1 & E)]|(i & H1 & E)]|(q & i & H1 & H2)].
        * tauto.
        * right. exists p, i. split; [left; reflexivity|tauto].
        * right. exists p, i. split; [left; reflexivity|tauto].
        * right. exists q, i. split; [right; exact H1|tauto].
      + intros [H1|(q & i & [->|H1] & H2 & [E|E])].
        * tauto.
        * left. right. exists i. tauto.
        * left. left. right. exists i. tauto.
        * right. exists q, i. tauto.
        * right. exists q, i. tauto. }
  rewrite G. split; [|tauto]. intros [H|H]; [|exact H].
  apply PositiveSet.empty_spec in H. contradiction.
Qed.

(** The numbers coprime to 6, by index. *)
Definition whl (i : Z) : Z := 5 + 3 * i - i mod 2.
Definition unmarked (s : PositiveSet.t) (n : Z) : bool := negb (PositiveSet.mem (Z.to_pos n) s).

Lemma walk_filter s k : forall i l, 0 <= i ->
  walk s k (whl i) (2 + 2 * (i mod 2)) l = true ->
  l = filter (unmarked s) (map whl (zrange i (i + Z.of_nat k))).
Proof.
  induction k as [|k IH]; intros i l Hi H.
  - rewrite zrange_nil by lia. destruct l; [reflexivity|discriminate].
  - rewrite zrange_cons by lia. replace (i + Z.of_nat (S k)) with (i + 1 + Z.of_nat k) by lia.
    assert (E : whl i + (2 + 2 * (i mod 2)) = whl (i + 1)).
    { unfold whl. Z.div_mod_to_equations. lia. }
    assert (E2 : 6 - (2 + 2 * (i mod 2)) = 2 + 2 * ((i + 1) mod 2)) by (Z.div_mod_to_equations; lia).
    cbn [walk map filter] in *. rewrite E, E2 in H. unfold unmarked at 1. destruct l as [|x l].
    + apply andb_true_iff in H as [H1 H2]. rewrite H1. cbn [negb]. apply IH; [lia|exact H2].
    + destruct (Z.eqb_spec (whl i) x) as [<-|Hne].
      * apply andb_true_iff in H as [H1 H2]. rewrite H1. f_equal. apply IH; [lia|exact H2].
      * apply andb_true_iff in H as [H1 H2]. rewrite H1. cbn [negb]. apply IH; [lia|exact H2].
Qed.

Lemma walk_ok :
  walk (sieve 1000000 small5) (Z.to_nat 333332) (whl 0) (2 + 2 * (0 mod 2)) (skipn 2 PRIME_LIST) = true.
Proof. vm_cast_no_check (eq_refl true). Qed.

Opaque walk sieve PRIME_LIST.

Lemma first_two : firstn 2 PRIME_LIST = [2; 3].
Proof. vm_cast_no_check (eq_refl [2; 3]). Qed.

Lemma PRIME_LIST_filter : PRIME_LIST =
  2 :: 3 :: filter (unmarked (sieve 1000000 small5)) (map whl (zrange 0 333332)).
Proof.
  pose proof (walk_filter _ _ _ _ (Z.le_refl 0) walk_ok) as W.
  rewrite Z2Nat.id, Z.add_0_l in W by lia. rewrite <- W.
  rewrite <- (firstn_skipn 2 PRIME_LIST) at 1. rewrite first_two. reflexivity.
Qed.

Lemma small5_ge5 : forall p, In p small5 -> 5 <= p.
Proof.
  assert (H : forallb (fun q => 5 <=? q) small5 = true) by (vm_compute; reflexivity).
  rewrite forallb_forall in H. intros p Hp. apply Z.leb_le, H, Hp.
Qed.

Lemma unmarked_prime n : 5 <= n <= 1000000 -> n mod 2 <> 0 -> n mod 3 <> 0 ->
  (unmarked (sieve 1000000 small5) n = true <-> prime n).
Proof.
  intros Hn H2 H3.
  assert (Ge : forall p, In p small5 -> 2 <= p) by (intros p Hp; apply small5_ge5 in Hp; lia).
  pose proof (sieve_In 1000000 small5 (Z.to_pos n) Ge) as S.
  rewrite Z2Pos.id in S by lia. specialize (S ltac:(lia)).
  rewrite <- PositiveSet.mem_spec in S. unfold unmarked.
  rewrite negb_true_iff, <- not_true_iff_false, S. clear S. split.
  - intros H. destruct (prime_dec n) as [P|P]; [exact P|exfalso].
    destruct (composite_split n ltac:(lia) P) as (p & m & Hp & E & Hpm & Hpp & L).
    pose proof (prime_ge2 p Hp).
    destruct (small_hits p ltac:(nia)) as (r & Hr & Dr).
    assert (r = p).
    { pose proof (small_ge2 r Hr). destruct (prime_divisors_cases p r Hp Dr); lia. }
    subst r. rewrite small_eq in Hr.
    assert (p mod 2 <> 0 /\ p mod 3 <> 0 /\ m mod 2 <> 0 /\ m mod 3 <> 0) as (Ha & Hb & Hc & Hd).
    { rewrite E in H2, H3. rewrite Z.mul_mod in H2, H3 by lia.
      repeat split; intros F; rewrite F in *; rewrite ?Z.mul_0_r, ?Z.mul_0_l in *;
        first [apply H2; reflexivity|apply H3; reflexivity]. }
    destruct Hr as [<-|[<-|Hr]]; [apply Ha; reflexivity|apply Hb; reflexivity|].
    assert (M : m mod 6 = p mod 6 \/ m mod 6 = other p mod 6).
    { unfold other. clear - Ha Hb Hc Hd. destruct (Z.eqb_spec (p mod 6) 1);
        Z.div_mod_to_equations; lia. }
    assert (O : other p <= p + 4 /\ p < other p) by (unfold other; destruct (p mod 6 =? 1); lia).
    apply H. destruct M as [M|M].
    + exists p, ((m - p) / 6). split; [exact Hr|].
      assert (m = p + 6 * ((m - p) / 6)) by (clear - M; Z.div_mod_to_equations; lia).
      split; [apply Z.div_pos; lia|]. left. rewrite E. nia.
    + exists p, ((m - other p) / 6). split; [exact Hr|].
      assert (m = other p + 6 * ((m - other p) / 6)) by (clear - M; Z.div_mod_to_equations; lia).
      assert (other p <= m).
      { assert (m <> p). { intros ->. revert M. unfold other. clear - Ha Hb.
          destruct (Z.eqb_spec (p mod 6) 1); Z.div_mod_to_equations; lia. }
        revert M. clear - Hpm H1 Ha Hb. unfold other.
        destruct (Z.eqb_spec (p mod 6) 1); Z.div_mod_to_equations; lia. }
      split; [apply Z.div_pos; lia|]. right. rewrite E. nia.
  - intros Hp (p & i & H1 & Hi & E). pose proof (small5_ge5 p H1).
    assert (O : p < other p) by (unfold other; destruct (p mod 6 =? 1); lia).
    destruct E as [E|E].
    + revert Hp. replace n with (p * (p + 6 * i)) by lia. apply prime_not_prime_mul; lia.
    + revert Hp. replace n with (p * (other p + 6 * i)) by lia. apply prime_not_prime_mul; lia.
Qed.

Lemma whl_In n : In n (map whl (zrange 0 333332)) <-> 5 <= n <= 1000000 /\ n mod 2 <> 0 /\ n mod 3 <> 0.
Proof.
  rewrite in_map_iff. unfold whl. split.
  - intros (i & <- & Hi). rewrite zrange_In in Hi. Z.div_mod_to_equations. lia.
  - intros (H1 & H2 & H3). exists ((n - 4) / 3). rewrite zrange_In.
    Z.div_mod_to_equations. lia.
Qed.

Lemma whl_sorted a b : 0 <= a -> StronglySorted Z.lt (map whl (zrange a b)).
Proof.
  intros Ha. destruct (Z.le_gt_cases a b) as [H|H]; [|rewrite zrange_nil by lia; constructor].
  assert (G : forall k a, 0 <= a -> StronglySorted Z.lt (map whl (zrange a (a + Z.of_nat k)))).
  { induction k as [|k IH]; intros c Hc; [rewrite zrange_nil by lia; constructor|].
    rewrite zrange_cons by lia. replace (c + Z.of_nat (S k)) with (c + 1 + Z.of_nat k) by lia.
    cbn [map]. constructor; [apply IH; lia|]. apply Forall_forall. intros y Hy.
    apply in_map_iff in Hy as (i & <- & Hi). rewrite zrange_In in Hi. unfold whl.
    Z.div_mod_to_equations. lia. }
  specialize (G (Z.to_nat (b - a)) a Ha). rewrite Z2Nat.id in G by lia.
  replace (a + (b - a)) with b in G by lia. exact G.
Qed.

Section Generic.
Variables (L : list Z) (s : PositiveSet.t) (K : Z).
Hypothesis HL : L = 2 :: 3 :: filter (unmarked s) (map whl (zrange 0 K)).
Hypothesis HK : forall n, In n (map whl (zrange 0 K)) <-> 5 <= n <= 1000000 /\ n mod 2 <> 0 /\ n mod 3 <> 0.
Hypothesis Hs : forall n, 5 <= n <= 1000000 -> n mod 2 <> 0 -> n mod 3 <> 0 ->
  (unmarked s n = true <-> prime n).

Lemma gen_In x : In x L <-> prime x /\ x <= 1000000.
Proof.
  rewrite HL. cbn [In]. rewrite filter_In, HK. split.
  - intros [<-|[<-|[H1 H2]]].
    + split; [exact prime_2|lia].
    + split; [exact prime_3|lia].
    + split; [|lia]. apply Hs; tauto.
  - intros [H1 H2]. pose proof (prime_ge2 x H1).
    destruct (Z.eq_dec x 2) as [->|N2]; [tauto|]. destruct (Z.eq_dec x 3) as [->|N3]; [tauto|].
    right. right.
    assert (E2 : x mod 2 <> 0).
    { intros E. apply Z.mod_divide in E; [|lia]. destruct (prime_divisors_cases x 2 H1 E); lia. }
    assert (E3 : x mod 3 <> 0).
    { intros E. apply Z.mod_divide in E; [|lia]. destruct (prime_divisors_cases x 3 H1 E); lia. }
    assert (5 <= x <= 1000000).
    { split; [|lia]. destruct (Z.eq_dec x 4) as [->|]; [|lia]. exfalso. apply E2. reflexivity. }
    split; [tauto|]. apply Hs; tauto.
Qed.

Lemma gen_sorted : StronglySorted Z.lt L.
Proof.
  rewrite HL. constructor; [constructor|].
  - apply filter_sorted, whl_sorted. lia.
  - apply Forall_forall. intros y Hy. rewrite filter_In, HK in Hy. lia.
  - apply Forall_forall. intros y [<-|Hy]; [lia|]. rewrite filter_In, HK in Hy. lia.
Qed.

End Generic.

Lemma PRIME_LIST_In x : In x PRIME_LIST <-> prime x /\ x <= 1000000.
Proof. exact (gen_In PRIME_LIST _ _ PRIME_LIST_filter whl_In unmarked_prime x). Qed.

Lemma PRIME_LIST_sorted : StronglySorted Z.lt PRIME_LIST.
Proof. exact (gen_sorted PRIME_LIST _ _ PRIME_LIST_filter whl_In). Qed.

Lemma PRIME_LIST_length : Z.of_nat (length PRIME_LIST) = 78498.
Proof. vm_cast_no_check (eq_refl 78498). Qed.

Lemma PRIME_LIST_last : last PRIME_LIST 0 = 999983.
Proof. vm_cast_no_check (eq_refl 999983). Qed.

Global Opaque PRIME_LIST.
