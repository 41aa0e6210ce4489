(** * When inverse_phi raises RuntimeError *)
From Coq Require Import ZArith List Lia Bool Znumtheory Sorted Permutation.
From Verif Require Import Base Py Dict Lists Lists2 NT NT_Prim NT_Prim2 NT_Cong Arith_Spec Factor_Spec Factor_Model Arith_Model Primality_Model Primes_Props Div_Proofs Div_Proofs2 Find_Proofs8 Inv_Model Inv_Proofs Inv_Proofs2.
Import ListNotations.
Open Scope Z_scope.

(** No key has an empty list. *)
Definition full (d : list (Z * list Z)) : Prop := forall k, In k (dkeys d) -> lget d k <> [].
Lemma full_ladd d k v : full d -> full (ladd d k v).
Proof.
  intros F m Hm E. rewrite lget_ladd in E. apply app_eq_nil in E as (E1 & E2). unfold ladd in Hm. apply dkeys_dset_In in Hm as [Hm| ->]; [exact (F m Hm E1)|]. rewrite Z.eqb_refl in E2. discriminate.
Qed.
Lemma full_step n p a pk b fuel d d' : full d -> run (cache_step n p a pk b) fuel (O, d) = Ret d' -> full d'.
Proof.
  intros F E. destruct (run_partial (cache_step n p a pk b) (fun s => full (snd s)) (fun r => forall d', r = Ret d' -> full d')) with (n := fuel) (s := (O, d)) as [D|P].
  - intros [i d1] F1. cbn [snd] in F1. unfold cache_step. destruct (nth_error (lget d1 b) i).
    + cbn [snd]. destruct (_ && _); [apply full_ladd, F1|exact F1].
    + intros d2 E2. injection E2 as <-. exact F1.
  - exact F.
  - rewrite D in E. discriminate.
  - exact (P d' E).
Qed.
Lemma full_key d k : full d -> In k (dkeys d) <-> lget d k <> [].
Proof. intros F. split; [apply F|]. intros N. destruct (lget d k) as [|x l] eqn:E; [congruence|]. apply (lget_key d k x). rewrite E. left. reflexivity. Qed.

Lemma dkeys_length (d : list (Z * list Z)) : length (dkeys d) = length d.
Proof. unfold dkeys. apply map_length. Qed.

(** Equal sizes mean equal keys, once one set of keys is contained in the other. *)
Lemma same_keys (d0 d : list (Z * list Z)) : NoDup (dkeys d0) -> NoDup (dkeys d) -> incl (dkeys d0) (dkeys d) -> length d = length d0 -> incl (dkeys d) (dkeys d0).
Proof. intros N0 N I E. apply NoDup_length_incl; [exact N0|rewrite !dkeys_length; lia|exact I]. Qed.
Lemma new_key (d0 d : list (Z * list Z)) : NoDup (dkeys d0) -> NoDup (dkeys d) -> incl (dkeys d0) (dkeys d) -> length d <> length d0 -> exists k, In k (dkeys d) /\ ~ In k (dkeys d0).
Proof.
  intros N0 N I E. destruct (Forall_Exists_dec (fun k => In k (dkeys d0)) (fun k => in_dec Z.eq_dec k (dkeys d0)) (dkeys d)) as [F|X].
  - exfalso. apply E. rewrite Forall_forall in F. pose proof (NoDup_incl_length N F). pose proof (NoDup_incl_length N0 I). rewrite !dkeys_length in *. lia.
  - apply Exists_exists in X. exact X.
Qed.

Section Level.
  Context (n p K : Z) (Hn : 1 <= n) (Pp : prime p) (HK : 1 <= K).
  Local Notation a := (p ^ (K - 1) * (p - 1)).
  Local Notation pk := (p ^ K).
  Local Notation f d0 := (fun m b => if a * b =? m then contrib n p K d0 b else []).

  Lemma keys_loop2 d0 : dict_ok d0 -> full d0 -> forall bs pre d, (forall b, In b bs -> 1 <= b) -> dict_ok d -> full d -> (forall m, lget d m = lget d0 m ++ flat_map (f d0 m) pre) ->
    let r := foldM (fun d b => if negb (length d =? length d0)%nat then Raise RuntimeError else if n <? a * b then Ret d
      else run (cache_step n p a pk b) (bits (2 * Z.of_nat (length (lget d b)))) (O, d)) bs d in
    exists d' pre' post, pre ++ bs = pre' ++ post /\ dict_ok d' /\ full d' /\ (forall m, lget d' m = lget d0 m ++ flat_map (f d0 m) pre') /\
      ((r = Raise RuntimeError /\ length d' <> length d0) \/ (r = Ret d' /\ post = [])).
  Proof using All.
    intros Ok0 F0. cbv zeta. pose proof (a_pos n p K Hn Pp HK) as Ha. induction bs as [|b bs IH]; intros pre d Hb Ok F Eq.
    - exists d, pre, []. split; [reflexivity|]. split; [exact Ok|]. split; [exact F|]. split; [exact Eq|]. right. split; reflexivity.
    - cbn [foldM]. destruct (Nat.eqb_spec (length d) (length d0)) as [El|El]; cbn [negb].
      2:{ exists d, pre, (b :: bs). split; [reflexivity|]. split; [exact Ok|]. split; [exact F|]. split; [exact Eq|]. left. split; [reflexivity|exact El]. }
      pose proof (Hb b (or_introl eq_refl)) as Hb1.
      assert (Eqf : filter (pfree p) (lget d b) = filter (pfree p) (lget d0 b)).
      { rewrite Eq, filter_app. replace (filter (pfree p) (flat_map (f d0 b) pre)) with (@nil Z); [apply app_nil_r|]. symmetry. clear - Hn Pp HK. induction pre as [|x l IHl]; [reflexivity|]. cbn [flat_map]. rewrite filter_app, IHl, app_nil_r. destruct (a * x =? b); [apply (filter_contrib n p K Hn Pp HK)|reflexivity]. }
      assert (Step : exists d1, (if n <? a * b then Ret d else run (cache_step n p a pk b) (bits (2 * Z.of_nat (length (lget d b)))) (O, d)) = Ret d1 /\ dict_ok d1 /\ full d1 /\ forall m, lget d1 m = lget d m ++ (if a * b =? m then contrib n p K d0 b else [])).
      { destruct (Z.ltb_spec n (a * b)) as [L|L].
        - exists d. split; [reflexivity|]. split; [exact Ok|]. split; [exact F|]. intros m. unfold contrib. rewrite Z.mod_small by lia. destruct (Z.eqb_spec n 0); [lia|]. destruct (a * b =? m); rewrite app_nil_r; reflexivity.
        - destruct (inner_ok n p K Hn Pp HK d b Ok Hb1) as (d1 & E & Ok1 & H1). exists d1. split; [exact E|]. split; [exact Ok1|]. split; [exact (full_step _ _ _ _ _ _ _ _ F E)|]. intros m. rewrite H1, (contrib_ext n p K d d0 b Eqf). reflexivity. }
      destruct Step as (d1 & -> & Ok1 & F1 & H1). cbn [bind]. destruct (IH (pre ++ [b]) d1 (fun x X => Hb x (or_intror X)) Ok1 F1) as (d' & pre' & post & E & R).
      + intros m. rewrite H1, Eq, flat_map_app. cbn [flat_map]. rewrite app_nil_r, app_assoc. reflexivity.
      + exists d', pre', post. rewrite <- app_assoc in E. split; [exact E|exact R].
  Qed.

  (** Either the keys stay the same, or there is a new one. *)
  Lemma keys_ok2 d0 : dict_ok d0 -> full d0 ->
    (exists d', cache_keys n p a pk d0 = Ret d' /\ dict_ok d' /\ full d' /\ incl (dkeys d') (dkeys d0) /\ incl (dkeys d0) (dkeys d')) \/
    (cache_keys n p a pk d0 = Raise RuntimeError /\ exists b y, In b (dkeys d0) /\ In y (contrib n p K d0 b) /\ ~ In (a * b) (dkeys d0)).
  Proof using All.
    intros Ok F. unfold cache_keys. destruct (keys_loop2 d0 Ok F (dkeys d0) [] d0 (proj2 Ok) Ok F) as (d' & pre & post & E & Ok' & F' & Eq & R); [intros m; cbn [flat_map]; rewrite app_nil_r; reflexivity|]. cbn [app] in E. cbv zeta in R.
    assert (I : incl (dkeys d0) (dkeys d')). { intros k Hk. apply (full_key d' k F'). apply (full_key d0 k F) in Hk. rewrite Eq. intros X. apply app_eq_nil in X as (X & _). contradiction. }
    assert (New : length d' <> length d0 -> exists b y, In b (dkeys d0) /\ In y (contrib n p K d0 b) /\ ~ In (a * b) (dkeys d0)).
    { intros N. destruct (new_key d0 d' (proj1 Ok) (proj1 Ok') I N) as (k & Hk & Nk). apply (full_key d' k F') in Hk. rewrite Eq in Hk. assert (L0 : lget d0 k = []) by (destruct (lget d0 k) as [|x l] eqn:El; [reflexivity|exfalso; apply Nk, (lget_key d0 k x); rewrite El; left; reflexivity]).
      rewrite L0 in Hk. cbn [app] in Hk. destruct (flat_map (f d0 k) pre) as [|y l] eqn:Ef; [congruence|]. assert (Hy : In y (flat_map (f d0 k) pre)) by (rewrite Ef; left; reflexivity). apply in_flat_map in Hy as (b & Hb & Hy).
      destruct (Z.eqb_spec (a * b) k) as [<-|]; [|destruct Hy]. exists b, y. split; [rewrite E; apply in_app_iff; left; exact Hb|]. split; assumption. }
    destruct R as [(-> & N)|(-> & ->)]; cbn [bind]; [right; split; [reflexivity|exact (New N)]|].
    destruct (Nat.eqb_spec (length d') (length d0)) as [El|El]; cbn [negb]; [left|right; split; [reflexivity|exact (New El)]].
    exists d'. split; [reflexivity|]. split; [exact Ok'|]. split; [exact F'|]. split; [apply same_keys; auto; [apply Ok|apply Ok']|exact I].
  Qed.
End Level.

(** A prime power of the same totient is met before x: a divisor of x, or a power of a prime above a prime factor of x. *)
Definition settled (x : Z) : Prop :=
  exists r j, prime r /\ 1 <= j /\ totient (r ^ j) = totient x /\ ((r ^ j | x) \/ exists q, prime q /\ (q | x) /\ q < r).
Definition unsettled_below (n : Z) : Prop := exists x, 2 <= x /\ (totient x | n) /\ ~ settled x.

Definition keys_are (n : Z) (P : Z -> Z -> Prop) (d : list (Z * list Z)) : Prop :=
  forall k, In k (dkeys d) <-> (k | n) /\ exists r j, prime r /\ 1 <= j /\ k = totient (r ^ j) /\ P r j.
Definition upto (Q : list Z) (p K r j : Z) : Prop := In r Q \/ (r = p /\ j < K).

Lemma pred_divides r j n : prime r -> 1 <= j -> (totient (r ^ j) | n) -> (r - 1 | n).
Proof. intros Pr Hj D. rewrite totient_pow in D by assumption. eapply Z.divide_trans; [|exact D]. apply Z.divide_factor_r. Qed.

Section Level2.
  Context (n p K : Z) (Q : list Z) (Hn : 1 <= n) (Pp : prime p) (HK : 1 <= K).
  Hypothesis (above : forall q, In q Q -> p < q) (all : forall r, prime r -> (r - 1 | n) -> p < r -> In r Q).
  Local Notation a := (p ^ (K - 1) * (p - 1)).
  Local Notation pk := (p ^ K).

  Lemma level2 d : cache_inv n (over p Q K) d -> full d -> keys_are n (upto Q p K) d -> (forall x, 2 <= x -> over p Q K x -> (totient x | n) -> settled x) ->
    let r := cache_keys n p a pk (if n mod a =? 0 then ladd d a pk else d) in
    (r = Raise RuntimeError /\ unsettled_below n) \/
    exists d', r = Ret d' /\ cache_inv n (over p Q (K + 1)) d' /\ full d' /\ keys_are n (upto Q p (K + 1)) d' /\ (forall x, 2 <= x -> over p Q (K + 1) x -> (totient x | n) -> settled x).
  Proof using All.
    cbv zeta. intros Inv F KI St. pose proof (prime_ge_2 p Pp) as Hp. pose proof (a_pos n p K Hn Pp HK) as Ha. pose proof (pk_ge n p K Hn Pp HK) as Hpk.
    assert (Ta : totient pk = a) by (apply totient_pow; assumption).
    pose proof (level_ok n p K Hn Pp HK Q d Inv) as Lv. cbv zeta in Lv. set (d0 := if n mod a =? 0 then ladd d a pk else d) in *. destruct Inv as (Ok & Inv).
    assert (Ok0 : dict_ok d0) by (unfold d0; destruct (n mod a =? 0); [apply ladd_ok; assumption|exact Ok]).
    assert (F0 : full d0) by (unfold d0; destruct (n mod a =? 0); [apply full_ladd, F|exact F]).
    assert (KI0 : keys_are n (upto Q p (K + 1)) d0).
    { intros k. assert (X : In k (dkeys d0) <-> In k (dkeys d) \/ (k = a /\ (a | n))).
      { unfold d0. destruct (Z.eqb_spec (n mod a) 0) as [E|E].
        - apply Z.mod_divide in E; [|lia]. unfold ladd. rewrite dkeys_dset_In. tauto.
        - split; [auto|]. intros [H|(_ & D)]; [exact H|]. apply Z.mod_divide in D; [contradiction|lia]. }
      rewrite X. unfold keys_are in KI. rewrite KI. split.
      - intros [(D & r & j & Pr & Hj & E & [U|(U1 & U2)])|(-> & D)]; (split; [exact D|]).
        + exists r, j. split; [assumption|split; [assumption|split; [first [assumption|symmetry; assumption|reflexivity]|]]]. left. exact U.
        + exists r, j. split; [assumption|split; [assumption|split; [first [assumption|symmetry; assumption|reflexivity]|]]]. right. split; [exact U1|lia].
        + exists p, K. split; [assumption|split; [assumption|split; [first [assumption|symmetry; assumption|reflexivity]|]]]. right. split; [reflexivity|lia].
      - intros (D & r & j & Pr & Hj & E & [U|(-> & U2)]).
        + left. split; [exact D|]. exists r, j. split; [assumption|split; [assumption|split; [first [assumption|symmetry; assumption|reflexivity]|]]]. left. exact U.
        + destruct (Z.eq_dec j K) as [-> |]; [right; rewrite Ta in E; subst k; split; [reflexivity|exact D]|left]. split; [exact D|]. exists p, j. split; [assumption|split; [assumption|split; [first [assumption|symmetry; assumption|reflexivity]|]]]. right. split; [reflexivity|lia]. }
    destruct (keys_ok2 n p K Hn Pp HK d0 Ok0 F0) as [(d' & E & Ok' & F' & I1 & I2)|(E & b & y & Hb & Hy & Nb)].
    - right. exists d'. split; [exact E|]. destruct Lv as [Er|(d'' & E' & Inv')]; [congruence|]. assert (d'' = d') as -> by congruence. split; [exact Inv'|]. split; [exact F'|].
      split; [intros k; split; [intros X; apply KI0, I1, X|intros X; apply I2, KI0, X]|].
      intros x Hx O D. apply (over_cases n p K Hn Pp HK Q x Hx) in O as O'. destruct O' as [O'|(x' & Ex & _)]; [apply St; assumption|].
      assert (In x (lget d' (totient x))) as Hin by (apply (proj2 Inv'); auto). apply lget_key, I1, KI0 in Hin as (_ & r & j & Pr & Hj & Er & [U|(-> & U)]).
      + exists r, j. split; [assumption|split; [assumption|split; [first [assumption|symmetry; assumption|reflexivity]|]]]. right. exists p. split; [exact Pp|]. split; [|apply above, U]. rewrite Ex. apply Z.divide_mul_r. replace K with (1 + (K - 1)) by lia. rewrite Z.pow_add_r, Z.pow_1_r by lia. apply Z.divide_factor_l.
      + exists p, j. split; [assumption|split; [assumption|split; [first [assumption|symmetry; assumption|reflexivity]|]]]. left. rewrite Ex. apply Z.divide_mul_r. replace K with (j + (K - j)) by lia. rewrite Z.pow_add_r by lia. apply Z.divide_factor_l.
    - left. split; [exact E|]. pose proof (proj2 Ok0 b Hb) as Hb1. unfold contrib in Hy. destruct (Z.eqb_spec (n mod (a * b)) 0) as [En|]; [|destruct Hy]. apply Z.mod_divide in En; [|nia].
      apply in_map_iff in Hy as (x' & <- & Hx'). apply filter_In in Hx' as (Hx' & Fx). apply (pfree_spec n p K Hn Pp HK) in Fx.
      assert (Hin : In x' (lget d b)). { unfold d0 in Hx'. destruct (n mod a =? 0); [|exact Hx']. rewrite lget_ladd in Hx'. apply in_app_iff in Hx' as [H|H]; [exact H|]. destruct (a =? b); [|destruct H]. destruct H as [<-|[]]. exfalso. apply Fx. replace K with (1 + (K - 1)) by lia. rewrite Z.pow_add_r, Z.pow_1_r by lia. apply Z.divide_factor_l. }
      apply (proj2 (Inv b)) in Hin as (Hx2 & (B & NK) & Et & Db).
      assert (Ty : totient (x' * pk) = a * b) by (rewrite (Z.mul_comm x'), totient_strip by (assumption || lia); rewrite Et; reflexivity).
      exists (x' * pk). split; [nia|]. split; [rewrite Ty; exact En|]. intros (r & j & Pr & Hj & Er & Cs). apply Nb, KI0. rewrite <- Ty, <- Er. split; [rewrite Er, Ty; exact En|]. exists r, j. split; [assumption|split; [assumption|split; [first [assumption|symmetry; assumption|reflexivity]|]]].
      assert (Primes : forall q, prime q -> (q | x' * pk) -> In q (p :: Q)). { intros q Pq D. apply prime_mult in D as [D|D]; [apply B; assumption| |exact Pq]. left. symmetry. apply (prime_pow_divide q p K Pq Pp ltac:(lia) D). }
      destruct Cs as [D|(q & Pq & Dq & Lt)].
      + assert (Dr : (r | x' * pk)). { eapply Z.divide_trans; [|exact D]. replace j with (1 + (j - 1)) by lia. rewrite Z.pow_add_r, Z.pow_1_r by lia. apply Z.divide_factor_l. }
        destruct (Primes r Pr Dr) as [<-|U]; [right; split; [reflexivity|]|left; exact U].
        destruct (Z_lt_le_dec j (K + 1)) as [|G]; [assumption|exfalso]. apply Fx. destruct D as (c & Ec). exists (c * p ^ (j - K - 1)). assert (pk <> 0) by lia. apply (Z.mul_reg_r _ _ pk); [assumption|]. rewrite Ec. replace j with (K + 1 + (j - K - 1)) at 1 by lia. rewrite !Z.pow_add_r, Z.pow_1_r by lia. ring.
      + left. apply all; [exact Pr|apply (pred_divides r j); auto; rewrite Er, Ty; exact En|]. destruct (Primes q Pq Dq) as [<-|U]; [exact Lt|]. specialize (above q U). lia.
  Qed.

  End Level2.

Lemma prime2 n p Q d : 1 <= n -> prime p -> (forall q, In q Q -> p < q) -> (forall r, prime r -> (r - 1 | n) -> p < r -> In r Q) ->
  cache_inv n (fun x => forall q, prime q -> (q | x) -> In q Q) d -> full d -> keys_are n (fun r j => In r Q) d -> (forall x, 2 <= x -> (forall q, prime q -> (q | x) -> In q Q) -> (totient x | n) -> settled x) ->
  let r := run (cache_power n p) (bits (n + 2)) (p - 1, p, d) in
  (r = Raise RuntimeError /\ unsettled_below n) \/
  exists d', r = Ret d' /\ cache_inv n (fun x => forall q, prime q -> (q | x) -> In q (p :: Q)) d' /\ full d' /\ keys_are n (fun r j => In r (p :: Q)) d' /\
    (forall x, 2 <= x -> (forall q, prime q -> (q | x) -> In q (p :: Q)) -> (totient x | n) -> settled x).
Proof.
  cbv zeta. intros Hn Pp above all Inv F KI St. pose proof (prime_ge_2 p Pp) as Hp. assert (NQ : ~ In p Q) by (intros X; specialize (above p X); lia).
  apply (run_rule (cache_power n p) (fun s => let '(a, pk, d) := s in exists K, 1 <= K /\ a = p ^ (K - 1) * (p - 1) /\ pk = p ^ K /\ cache_inv n (over p Q K) d /\ full d /\ keys_are n (upto Q p K) d /\ (forall x, 2 <= x -> over p Q K x -> (totient x | n) -> settled x))
    (fun s => Z.max 0 (n + 1 - fst (fst s)))
    (fun r => (r = Raise RuntimeError /\ unsettled_below n) \/ exists d', r = Ret d' /\ cache_inv n (fun x => forall q, prime q -> (q | x) -> In q (p :: Q)) d' /\ full d' /\ keys_are n (fun r j => In r (p :: Q)) d' /\
    (forall x, 2 <= x -> (forall q, prime q -> (q | x) -> In q (p :: Q)) -> (totient x | n) -> settled x))).
  - intros [[a pk] d1] (K & HK & Ea & Epk & Inv1 & F1 & KI1 & St1). unfold cache_power. cbn [fst]. pose proof (a_pos n p K Hn Pp HK) as Ha. rewrite <- Ea in Ha. destruct (Z.leb_spec a n) as [L|L].
    + pose proof (level2 n p K Q Hn Pp HK above all d1 Inv1 F1 KI1 St1) as S1. cbv zeta in S1. rewrite <- Ea, <- Epk in S1. destruct S1 as [(-> & Bad)|(d' & -> & Inv' & F' & KI' & St')]; [left; split; [reflexivity|exact Bad]|]. cbn [fst]. split; [|nia].
      exists (K + 1). split; [lia|]. split; [replace (K + 1 - 1) with (1 + (K - 1)) by lia; rewrite !Z.pow_add_r, Z.pow_1_r by lia; rewrite Ea; ring|]. split; [rewrite Z.pow_add_r, Z.pow_1_r by lia; rewrite Epk; ring|]. split; [exact Inv'|]. split; [exact F'|]. split; [exact KI'|exact St'].
    + right. exists d1. split; [reflexivity|].
      assert (Small : forall j, K <= j -> ~ (totient (p ^ j) | n)).
      { intros j Hj D. rewrite totient_pow in D by (assumption || lia). assert (Da : (a | n)). { eapply Z.divide_trans; [|exact D]. rewrite Ea. replace (j - 1) with ((K - 1) + (j - K)) by lia. rewrite Z.pow_add_r by lia. exists (p ^ (j - K)). ring. } apply Z.divide_pos_le in Da; lia. }
      assert (X : forall x m, 2 <= x -> totient x = m -> (m | n) -> over p Q K x <-> (forall q, prime q -> (q | x) -> In q (p :: Q))).
      { intros x m Hx Et D. split; [intros (B & _); exact B|]. intros B. split; [exact B|]. intros Dp. destruct (strip_exists p x Pp ltac:(lia)) as (k & y & Hk & Ex & Ny & Hy).
        assert (K <= k). { destruct (Z_lt_le_dec k K) as [G|]; [exfalso|assumption]. apply Ny. destruct Dp as (c & Ec). exists (c * p ^ (K - k - 1)). assert (p ^ k <> 0) by (apply Z.pow_nonzero; lia). apply (Z.mul_reg_l _ _ (p ^ k)); [assumption|]. rewrite <- Ex, Ec. replace K with (k + 1 + (K - k - 1)) at 1 by lia. rewrite !Z.pow_add_r, Z.pow_1_r by lia. ring. }
        apply (Small k); [lia|]. eapply Z.divide_trans; [|exact D]. rewrite <- Et, Ex, totient_strip, totient_pow by (assumption || lia). apply Z.divide_factor_l. }
      split; [revert Inv1; apply cache_inv_ext; exact X|]. split; [exact F1|]. split.
      * intros k. unfold keys_are in KI1. rewrite (KI1 k). split; intros (D & r & j & Pr & Hj & E & U); (split; [exact D|]); exists r, j; (split; [exact Pr|]); (split; [exact Hj|]); (split; [exact E|]).
        -- destruct U as [U|(-> & _)]; [right; exact U|left; reflexivity].
        -- destruct U as [<-|U]; [right; split; [reflexivity|]|left; exact U]. destruct (Z_lt_le_dec j K) as [|G]; [assumption|]. exfalso. apply (Small j G). rewrite <- E. exact D.
      * intros x Hx B D. apply St1; [exact Hx|apply (X x (totient x)); auto|exact D].
  - assert (X : forall x, over p Q 1 x <-> (forall q, prime q -> (q | x) -> In q Q)).
    { intros x. unfold over. rewrite Z.pow_1_r. split.
      + intros (B & N) q Pq Dq. destruct (B q Pq Dq) as [<-|]; [contradiction|assumption].
      + intros B. split; [intros q Pq Dq; right; apply B; assumption|]. intros Dp. apply NQ, B; assumption. }
    exists 1. split; [lia|]. rewrite Z.sub_diag, Z.pow_0_r, Z.pow_1_r. split; [ring|]. split; [reflexivity|]. split; [revert Inv; apply cache_inv_ext; intros x m _ _ _; symmetry; apply X|]. split; [exact F|]. split.
    + intros k. unfold keys_are in KI. rewrite (KI k). split; intros (D & r & j & Pr & Hj & E & U); (split; [exact D|]); exists r, j; (split; [exact Pr|]); (split; [exact Hj|]); (split; [exact E|]); [left; exact U|]. destruct U as [U|(_ & U)]; [exact U|lia].
    + intros x Hx O D. apply St; [exact Hx|apply X, O|exact D].
  - cbn [fst]. pose proof (bits_spec (n + 2)). lia.
Qed.
