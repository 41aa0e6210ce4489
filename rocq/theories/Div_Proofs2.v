(** * divisors, divisor_pairs, unitary_divisors *)
From Coq Require Import ZArith List Bool Lia Znumtheory Sorted Permutation.
From Verif Require Import Base Lists Lists2 NT NT_Euler Factor_Model Factor_Spec Factor_Proofs Div_Proofs.
Import ListNotations.
Open Scope Z_scope.

Definition divisor_list (n : Z) (r : list Z) : Prop :=
  StronglySorted Z.lt r /\ forall d, In d r <-> 0 < d /\ (d | n).

Lemma divisors_sorted n l : factorization n l -> divisor_list n (zsort (fac_divisors l)).
Proof.
  intros F. destruct (fac_divisors_spec n l F) as [N I]. split; [apply zsort_strict, N|].
  intros d. rewrite zsort_In. apply I.
Qed.

Lemma factorization_head n p e l : factorization n ((p, e) :: l) -> (p =? -1) = false.
Proof. intros F. apply factorization_cons in F as (Hp & _). pose proof (prime_ge2 p Hp). lia. Qed.

Lemma divide_abs_r d n : (d | Z.abs n) <-> (d | n).
Proof. apply Z.divide_abs_r. Qed.

Section D.
  Context (fact : Z -> outcome (list (Z * Z))).

  Lemma divisors_ok n l : fact (Z.abs n) = Ret l -> factorization (Z.abs n) l ->
    exists r, divisors fact (Some n) None = Ret r /\ divisor_list n r.
  Proof.
    intros E F. unfold divisors, get_factorization. rewrite E. cbn [bind]. eexists. split; [reflexivity|].
    destruct (divisors_sorted _ _ F) as [S I]. split; [exact S|]. intros d.
    change (map (tuple_product (map fst l)) (exp_tuples l)) with (fac_divisors l). rewrite I.
    rewrite divide_abs_r. reflexivity.
  Qed.

  Lemma divisors_fac_ok n m l : factorization m l -> m <> 1 ->
    exists r, divisors fact n (Some l) = Ret r /\ divisor_list m r.
  Proof.
    intros F H. unfold divisors, get_factorization. destruct l as [|[p e] l].
    - destruct F as (_ & _ & V). cbn in V. lia.
    - rewrite (factorization_head _ _ _ _ F). destruct n; cbn [bind]; (eexists; split; [reflexivity|apply (divisors_sorted _ _ F)]).
  Qed.

  Lemma xdivisors_ok n l : fact (Z.abs n) = Ret l -> factorization (Z.abs n) l ->
    exists r, xdivisors fact (Some n) None = Ret r /\ NoDup r /\ forall d, In d r <-> 0 < d /\ (d | n).
  Proof.
    intros E F. unfold xdivisors, get_factorization. rewrite E. cbn [bind]. eexists. split; [reflexivity|].
    destruct (fac_divisors_spec _ _ F) as [N I]. split; [exact N|]. intros d.
    change (map (tuple_product (map fst l)) (exp_tuples l)) with (fac_divisors l). rewrite I, divide_abs_r. reflexivity.
  Qed.

  Lemma prime_divisors_ok n l : fact (Z.abs n) = Ret l -> factorization (Z.abs n) l ->
    exists r, prime_divisors fact (Some n) None = Ret r /\ StronglySorted Z.lt r /\
      forall p, In p r <-> prime p /\ (p | n).
  Proof.
    intros E F. unfold prime_divisors, get_factorization. rewrite E. cbn [bind]. eexists. split; [reflexivity|].
    split.
    - destruct F as (S & _). clear - S. induction S as [|x l S IH H]; cbn [map]; constructor; [exact IH|].
      apply Forall_map. exact H.
    - intros p. split.
      + intros H. assert (Hp : prime p).
        { apply in_map_iff in H as ([q e] & <- & H). destruct F as (_ & A & _). apply A in H. apply H. }
        split; [exact Hp|]. apply divide_abs_r. apply (factorization_prime_divisor _ _ p F Hp). exact H.
      + intros [Hp D]. apply (factorization_prime_divisor _ _ p F Hp). apply divide_abs_r. exact D.
  Qed.

  (** divisor_pairs *)
  Lemma pairs_loop_ok n l : 0 < n -> StronglySorted Z.lt l -> (forall d, In d l -> 0 < d /\ (d | n)) ->
    exists r, pairs_loop n l = Ret r /\ StronglySorted (fun x y => fst x < fst y) r /\
      forall a b, In (a, b) r <-> In a l /\ a * b = n /\ a <= b.
  Proof.
    intros Hn. induction l as [|d l IH]; intros S H; cbn [pairs_loop].
    - exists []. split; [reflexivity|]. split; [constructor|]. intros a b. cbn. tauto.
    - inversion S as [|? ? S1 S2]; subst. rewrite Forall_forall in S2.
      destruct (H d (or_introl eq_refl)) as [Hd Dd]. unfold pydiv. destruct (Z.eqb_spec d 0); [lia|]. cbn [bind].
      destruct Dd as [q Eq]. assert (Q : n / d = q) by (rewrite Eq; apply Z.div_mul; lia). rewrite Q.
      destruct (Z.ltb_spec q d) as [L|L].
      + exists []. split; [reflexivity|]. split; [constructor|]. intros a b. split; [intros []|].
        intros [[<-|Hin] [Eab Hab]]; exfalso.
        * assert (b = q) by nia. lia.
        * specialize (S2 a Hin). assert (d < a) by lia. nia.
      + destruct (IH S1) as (r & Er & Sr & Ir); [intros x Hx; apply H; right; exact Hx|]. rewrite Er. cbn [bind].
        eexists. split; [reflexivity|]. split.
        * constructor; [exact Sr|]. apply Forall_forall. intros [a b] Hab. apply Ir in Hab as [Hin _]. cbn. apply S2, Hin.
        * intros a b. cbn [In]. rewrite Ir. split.
          -- intros [X|X]; [injection X as <- <-; split; [left; reflexivity|]; split; [lia|exact L]|]. tauto.
          -- intros [[<-|X] [Y W]]; [left; f_equal; nia|right; auto].
  Qed.

  Lemma divisor_pairs_ok n l : 2 <= n -> fact n = Ret l -> factorization n l ->
    exists r, divisor_pairs fact (Some n) None = Ret r /\ StronglySorted (fun x y => fst x < fst y) r /\
      forall a b, In (a, b) r <-> 0 < a <= b /\ a * b = n.
  Proof.
    intros Hn E F. unfold divisor_pairs, get_factorization. rewrite Z.abs_eq by lia. rewrite E. cbn [bind].
    destruct (divisors_fac_ok (Some n) n l F ltac:(lia)) as (r & Er & Sr & Ir). rewrite Er. cbn [bind].
    destruct (pairs_loop_ok n r ltac:(lia) Sr) as (r' & Er' & Sr' & Ir'); [intros d Hd; apply Ir, Hd|].
    exists r'. split; [exact Er'|]. split; [exact Sr'|]. intros a b. rewrite Ir', Ir. split.
    - intros [[Ha D] [Eab L]]. split; [lia|exact Eab].
    - intros [L Eab]. split; [|split; [exact Eab|lia]]. split; [lia|]. exists b. lia.
  Qed.

  Lemma divisor_pairs_1 : fact 1 = Ret [] -> divisor_pairs fact (Some 1) None = Raise IndexError.
  Proof. intros E. unfold divisor_pairs, get_factorization. cbn [Z.abs]. rewrite E. reflexivity. Qed.
End D.

(** ** Sublists *)
Fixpoint sublists (l : list Z) : list (list Z) :=
  match l with
  | [] => [[]]
  | x :: l' => map (cons x) (sublists l') ++ sublists l'
  end.

Lemma combs_In l : forall k t, In t (combs l k) <-> In t (sublists l) /\ length t = k.
Proof.
  induction l as [|x l IH]; intros k t.
  - destruct k; cbn [combs sublists In].
    + split; [intros [<-|[]]; auto|]. intros [[<-|[]] _]. auto.
    + split; [intros []|]. intros [[<-|[]] H]. discriminate.
  - destruct k; cbn [combs sublists].
    + cbn [In]. rewrite in_app_iff, in_map_iff. split.
      * intros [<-|[]]. split; [|reflexivity]. right. clear. induction l as [|y l IH]; cbn [sublists]; [left; reflexivity|].
        apply in_or_app. right. exact IH.
      * intros [_ H]. left. destruct t; [reflexivity|discriminate].
    + rewrite !in_app_iff, !in_map_iff, IH. split.
      * intros [(u & <- & Hu)|H]; [|tauto]. apply IH in Hu as [Hu L]. split; [left; eauto|cbn; lia].
      * intros [[(u & <- & Hu)|H] L]; [|tauto]. left. exists u. split; [reflexivity|]. apply IH. split; [exact Hu|]. cbn in L. lia.
Qed.

Lemma sublists_incl l t x : In t (sublists l) -> In x t -> In x l.
Proof.
  revert t. induction l as [|y l IH]; intros t Ht Hx; cbn [sublists] in Ht.
  - destruct Ht as [<-|[]]. destruct Hx.
  - apply in_app_or in Ht as [Ht|Ht]; [|right; eauto]. apply in_map_iff in Ht as (u & <- & Hu).
    destruct Hx as [<-|Hx]; [left; reflexivity|right; eauto].
Qed.

Lemma sublists_NoDup l : NoDup l -> NoDup (sublists l).
Proof.
  induction l as [|x l IH]; intros N; cbn [sublists]; [repeat constructor; intros []|].
  inversion N as [|? ? N1 N2]; subst. apply NoDup_app_intro.
  - apply NoDup_map_inj; [auto|]. intros u v _ _ E. congruence.
  - auto.
  - intros t Ht Ht'. apply in_map_iff in Ht as (u & <- & _). apply N1.
    apply (sublists_incl l (x :: u) x Ht'). left. reflexivity.
Qed.

Lemma combs_NoDup l : NoDup l -> forall k, NoDup (combs l k).
Proof.
  induction l as [|x l IH]; intros N k; destruct k; cbn [combs]; try (repeat constructor; intros []; fail).
  inversion N as [|? ? N1 N2]; subst. apply NoDup_app_intro.
  - apply NoDup_map_inj; [auto|]. intros u v _ _ E. congruence.
  - auto.
  - intros t Ht Ht'. apply in_map_iff in Ht as (u & <- & _). apply N1. apply combs_In in Ht' as [Ht' _].
    apply (sublists_incl l (x :: u) x Ht'). left. reflexivity.
Qed.

Lemma sublists_length l t : In t (sublists l) -> (length t <= length l)%nat /\ (length t = length l -> t = l) .
Proof.
  revert t. induction l as [|x l IH]; intros t H; cbn [sublists] in H.
  - destruct H as [<-|[]]. auto.
  - apply in_app_or in H as [H|H].
    + apply in_map_iff in H as (u & <- & Hu). destruct (IH u Hu) as [A B]. cbn. split; [lia|]. intros E. f_equal. apply B. lia.
    + destruct (IH t H). cbn. split; [lia|]. intros. lia.
Qed.

Lemma fold_mul l a : fold_left Z.mul l a = a * zprod l.
Proof.
  revert a. induction l as [|x l IH]; intros a; cbn [fold_left]; [rewrite zprod_nil; ring|].
  rewrite IH, zprod_cons. ring.
Qed.

(** Products of the sublists of the prime powers are the unitary divisors. *)
Definition unitary (n d : Z) : Prop := exists c, n = d * c /\ Z.gcd d c = 1.

Lemma unitary_split p e m d : prime p -> 1 <= e -> Z.gcd p m = 1 -> 0 < m -> 0 < d ->
  (unitary (p ^ e * m) d <-> (unitary m d \/ exists d', d = p ^ e * d' /\ unitary m d')).
Proof.
  intros Hp He G Hm Hd. pose proof (prime_ge2 p Hp) as Hp2.
  assert (Hpe : 0 < p ^ e) by (apply Z.pow_pos_nonneg; lia).
  assert (Ge : Z.gcd (p ^ e) m = 1) by (apply gcd_1_pow; [lia|exact G]).
  split.
  - intros (c & E & Gc).
    assert (Hc : 0 < c) by nia.
    destruct (divisor_split p e m d Hp ltac:(lia) G Hd) as (i & d' & Hi & Ed & D' & P'); [exists c; lia|].
    destruct (divisor_split p e m c Hp ltac:(lia) G Hc) as (j & c' & Hj & Ec & Dc' & Pc'); [exists d; lia|].
    assert (NDx : forall x, (x | m) -> ~ (p | x)).
    { intros x D X. assert (Y : (p | Z.gcd p m)).
      { apply Z.gcd_greatest; [apply Z.divide_refl|]. apply Z.divide_trans with x; assumption. }
      rewrite G in Y. apply Z.divide_1_r in Y. lia. }
    assert (pd : forall k, 1 <= k -> (p | p ^ k)).
    { intros k Hk. exists (p ^ (k - 1)). replace k with ((k - 1) + 1) at 1 by lia.
      rewrite Z.pow_add_r, Z.pow_1_r by lia. reflexivity. }
    assert (Hz : i = 0 \/ j = 0).
    { destruct (Z.eq_dec i 0); [auto|]. destruct (Z.eq_dec j 0); [auto|]. exfalso.
      assert (Y : (p | Z.gcd d c)).
      { apply Z.gcd_greatest; [rewrite Ed|rewrite Ec]; apply Z.divide_mul_l, pd; lia. }
      rewrite Gc in Y. apply Z.divide_1_r in Y. lia. }
    assert (EE : p ^ e * m = p ^ (i + j) * (d' * c')) by (rewrite Z.pow_add_r by lia; rewrite E, Ed, Ec; ring).
    assert (Hij : i + j = e).
    { destruct (Z.lt_trichotomy (i + j) e) as [L|[L|L]]; [|exact L|]; exfalso.
      - assert (X : (p | d' * c')).
        { exists (p ^ (e - (i + j) - 1) * m). replace e with ((i + j) + ((e - (i + j) - 1) + 1)) in EE by lia.
          rewrite (Z.pow_add_r p (i + j)), (Z.pow_add_r p (e - (i + j) - 1)), Z.pow_1_r in EE by lia.
          assert (0 < p ^ (i + j)) by (apply Z.pow_pos_nonneg; lia).
          apply (Z.mul_cancel_l _ _ (p ^ (i + j))); [lia|]. lia. }
        apply prime_mult in X; [|exact Hp]. destruct X as [X|X]; [apply (NDx d' D' X)|apply (NDx c' Dc' X)].
      - destruct Hz; lia. }
    assert (Em : m = d' * c') by (rewrite Hij in EE; apply (Z.mul_cancel_l _ _ (p ^ e)); lia).
    assert (U : unitary m d').
    { exists c'. split; [exact Em|]. apply Z.divide_1_r_nonneg; [apply Z.gcd_nonneg|]. rewrite <- Gc.
      apply Z.gcd_greatest; [rewrite Ed|rewrite Ec]; apply Z.divide_mul_r; [apply Z.gcd_divide_l|apply Z.gcd_divide_r]. }
    destruct Hz as [-> | ->].
    + left. rewrite Z.pow_0_r, Z.mul_1_l in Ed. rewrite Ed. exact U.
    + right. exists d'. split; [|exact U]. rewrite Ed. f_equal. f_equal. lia.
  - assert (Sub : forall d c, m = d * c -> Z.gcd (p ^ e) d = 1 /\ Z.gcd (p ^ e) c = 1).
    { intros x y ->. split; apply Z.divide_1_r_nonneg; try apply Z.gcd_nonneg; rewrite <- Ge;
        apply Z.gcd_greatest; try apply Z.gcd_divide_l; [apply Z.divide_mul_l|apply Z.divide_mul_r]; apply Z.gcd_divide_r. }
    intros [(c & E & Gc)|(d' & -> & c & E & Gc)]; destruct (Sub _ _ E) as [G1 G2].
    + exists (p ^ e * c). split; [rewrite E; ring|]. rewrite Z.gcd_comm. apply gcd_1_mul; [exact G1|rewrite Z.gcd_comm; exact Gc].
    + exists c. split; [rewrite E; ring|]. apply gcd_1_mul; [exact G2|exact Gc].
Qed.

Definition pks (l : list (Z * Z)) : list Z := map (fun '(p, k) => p ^ k) l.

Lemma zprod_pks l : zprod (pks l) = fac_value l.
Proof. unfold pks, fac_value. f_equal. apply map_ext. intros [p e]. reflexivity. Qed.

Lemma unitary_sublists n l : factorization n l ->
  forall d, 0 < d -> (unitary n d <-> In d (map zprod (sublists (pks l)))).
Proof.
  revert n. induction l as [|[p e] l IH]; intros n F d Hd.
  - destruct F as (_ & _ & V). cbn in V. subst n. cbn. split.
    + intros (c & E & _). left. symmetry. apply Z.divide_1_r_nonneg; [lia|]. exists c. lia.
    + intros [<-|[]]. exists 1. split; reflexivity.
  - apply factorization_cons in F as (Hp & He & -> & F & Lt). pose proof (coprime_rest p l Hp F Lt) as G.
    pose proof (factorization_pos _ _ F) as Hm. pose proof (prime_ge2 p Hp).
    assert (0 < p ^ e) by (apply Z.pow_pos_nonneg; lia).
    rewrite unitary_split by (try assumption; lia).
    cbn [pks map sublists]. fold (pks l). rewrite map_app, in_app_iff, map_map.
    assert (M : (exists d', d = p ^ e * d' /\ unitary (fac_value l) d') <->
      In d (map (fun x => zprod (p ^ e :: x)) (sublists (pks l)))).
    { rewrite in_map_iff. split.
      - intros (d' & E & U). apply (IH _ F) in U; [|nia]. apply in_map_iff in U as (t & <- & Ht). exists t.
        rewrite zprod_cons. auto.
      - intros (t & <- & Ht). exists (zprod t). split; [apply zprod_cons|].
        assert (0 < zprod t).
        { rewrite zprod_cons in Hd. nia. }
        apply (IH _ F); [assumption|]. apply in_map, Ht. }
    rewrite M. rewrite (IH _ F d Hd). tauto.
Qed.

Lemma sublists_pos l t : In t (sublists l) -> (forall x, In x l -> 0 < x) -> 0 < zprod t.
Proof.
  intros Ht H. assert (A : forall x, In x t -> 0 < x) by (intros x Hx; apply H; apply (sublists_incl l t x Ht Hx)).
  clear Ht. induction t as [|x t IH]; [rewrite zprod_nil; lia|]. rewrite zprod_cons.
  assert (0 < x) by (apply A; left; reflexivity). assert (0 < zprod t) by (apply IH; intros y Hy; apply A; right; exact Hy). nia.
Qed.

Lemma sublists_zprod_NoDup n l : factorization n l -> NoDup (map zprod (sublists (pks l))).
Proof.
  revert n. induction l as [|[p e] l IH]; intros n F; [cbn; repeat constructor; intros []|].
  pose proof F as F0. apply factorization_cons in F as (Hp & He & -> & F & Lt). pose proof (coprime_rest p l Hp F Lt) as G.
  pose proof (prime_ge2 p Hp).
  assert (0 < p ^ e) by (apply Z.pow_pos_nonneg; lia).
  assert (Pos : forall x, In x (pks l) -> 0 < x).
  { intros x Hx. apply in_map_iff in Hx as ([q k] & <- & Hq). destruct F as (_ & A & _). apply A in Hq as [Hq Hk].
    pose proof (prime_ge2 q Hq). apply Z.pow_pos_nonneg; lia. }
  cbn [pks map sublists]. fold (pks l). rewrite map_app, map_map. specialize (IH _ F). apply NoDup_app_intro.
  - rewrite <- (map_map zprod (fun z => p ^ e * z)). apply NoDup_map_inj; [exact IH|].
    intros x y _ _ E. apply (Z.mul_cancel_l _ _ (p ^ e)); lia.
  - exact IH.
  - intros d Hd Hd'. apply in_map_iff in Hd as (t & E & Ht). rewrite zprod_cons in E.
    assert (Hd0 : 0 < d).
    { pose proof (sublists_pos _ _ Ht Pos). nia. }
    apply (unitary_sublists _ _ F d Hd0) in Hd' as (c & Ec & _).
    assert (Y : (p | Z.gcd p (fac_value l))).
    { apply Z.gcd_greatest; [apply Z.divide_refl|]. exists (p ^ (e - 1) * zprod t * c). rewrite Ec, <- E.
      replace e with (1 + (e - 1)) at 1 by lia. rewrite Z.pow_add_r, Z.pow_1_r by lia. ring. }
    rewrite G in Y. apply Z.divide_1_r in Y. lia.
Qed.

Lemma unitary_divisors_ok fact n l : 2 <= n -> fact n = Ret l -> factorization n l ->
  exists r, unitary_divisors fact n None = Ret r /\ StronglySorted Z.lt r /\
    forall d, In d r <-> 0 < d /\ unitary n d.
Proof.
  intros Hn E F. unfold unitary_divisors, get_factorization. rewrite Z.abs_eq by lia. rewrite E. cbn [bind].
  fold (pks l). eexists. split; [reflexivity|].
  assert (Hl : (1 <= length (pks l))%nat).
  { unfold pks. rewrite map_length. destruct l; [destruct F as (_ & _ & V); cbn in V; lia|cbn; lia]. }
  assert (Np : NoDup (pks l)).
  { pose proof (sublists_zprod_NoDup n l F) as N. apply NoDup_map_inv in N.
    revert N. generalize (pks l). clear. intros l. induction l as [|x l IH]; cbn [sublists]; intros N; [constructor|].
    apply NoDup_app_inv in N as (_ & N2 & D). constructor; [|auto]. intros X.
    assert (W : In [x] (sublists l)).
    { clear - X. induction l as [|y l IH]; [destruct X|]. cbn [sublists]. apply in_or_app. destruct X as [<-|X]; [left|right; auto].
      apply in_map. clear. induction l as [|z l IH]; cbn [sublists]; [left; reflexivity|]. apply in_or_app. right. exact IH. }
    apply (D [x]); [|exact W]. apply in_map. clear. induction l as [|z l IH]; cbn [sublists]; [left; reflexivity|].
    apply in_or_app. right. exact IH. }
  assert (Nil : In [] (sublists (pks l))).
  { generalize (pks l). clear. induction l as [|z l IH]; cbn [sublists]; [left; reflexivity|]. apply in_or_app. right. exact IH. }
  assert (Full : In (pks l) (sublists (pks l))).
  { generalize (pks l). clear. induction l as [|z l IH]; cbn [sublists]; [left; reflexivity|]. apply in_or_app. left. apply in_map, IH. }
  set (mid := flat_map (combs (pks l)) (seq 1 (length (pks l) - 1))).
  assert (EQ : [1; n] ++ flat_map (fun i => map (fun sub => fold_left Z.mul sub 1) (combs (pks l) i)) (seq 1 (length (pks l) - 1))
      = map zprod ([[]; pks l] ++ mid)).
  { rewrite map_app. cbn [map]. rewrite zprod_pks, zprod_nil. destruct F as (_ & _ & V). rewrite V. cbn [app]. do 2 f_equal.
    unfold mid. rewrite !flat_map_concat_map, concat_map, map_map. f_equal. apply map_ext. intros i. apply map_ext.
    intros t. rewrite fold_mul. ring. }
  rewrite EQ.
  assert (P : Permutation ([[]; pks l] ++ mid) (sublists (pks l))).
  { assert (Im : forall t, In t mid <-> In t (sublists (pks l)) /\ (1 <= length t < length (pks l))%nat).
    { intros t. unfold mid. rewrite in_flat_map. split.
      - intros (k & Hk & Ht). apply in_seq in Hk. apply combs_In in Ht as [Ht L]. split; [exact Ht|lia].
      - intros [Ht L]. exists (length t). split; [apply in_seq; lia|]. apply combs_In. auto. }
    apply NoDup_same_perm.
    - cbn [app]. constructor.
      + intros [X|X]; [rewrite X in Hl; cbn in Hl; lia|]. apply Im in X as [_ X]. cbn in X. lia.
      + constructor; [intros X; apply Im in X as [_ X]; lia|].
        unfold mid. apply NoDup_flat_map; [apply seq_NoDup|intros; apply combs_NoDup, Np|].
        intros i j t _ _ Hi Hj. apply combs_In in Hi, Hj. destruct Hi, Hj. lia.
    - apply sublists_NoDup, Np.
    - intros t. cbn [app In]. rewrite Im. split.
      + intros [<-|[<-|[H _]]]; assumption.
      + intros H. destruct (sublists_length _ _ H) as [A B]. destruct t as [|x t]; [left; reflexivity|right].
        destruct (Nat.eq_dec (length (x :: t)) (length (pks l))) as [X|X]; [left; symmetry; apply B, X|right].
        split; [exact H|cbn in *; lia]. }
  apply (Permutation_map zprod) in P.
  split.
  - apply zsort_strict. apply (Permutation_NoDup (Permutation_sym P)), (sublists_zprod_NoDup n l F).
  - intros d. rewrite zsort_In. split.
    + intros H. apply (Permutation_in _ P) in H.
      assert (Hd : 0 < d).
      { apply in_map_iff in H as (t & <- & Ht). apply (sublists_pos _ _ Ht). intros x Hx.
        apply in_map_iff in Hx as ([q k] & <- & Hq). destruct F as (_ & A & _). apply A in Hq as [Hq Hk].
        pose proof (prime_ge2 q Hq). apply Z.pow_pos_nonneg; lia. }
      split; [exact Hd|]. apply (unitary_sublists n l F d Hd). exact H.
    + intros [Hd U]. apply (Permutation_in _ (Permutation_sym P)). apply (unitary_sublists n l F d Hd). exact U.
Qed.
