(** * inverse_phi *)
From Coq Require Import ZArith List Lia Bool Znumtheory Sorted Permutation.
From Verif Require Import Base Py Dict Lists Lists2 NT NT_Prim NT_Prim2 NT_Cong Arith_Spec Factor_Spec Factor_Model Arith_Model Primality_Model Primes_Props Div_Proofs Div_Proofs2 Find_Proofs8 Inv_Model Inv_Proofs.
Import ListNotations.
Open Scope Z_scope.

Lemma lget_ladd d k v m : lget (ladd d k v) m = lget d m ++ (if k =? m then [v] else []).
Proof. unfold ladd, lget at 1. rewrite dget_dset. destruct (Z.eqb_spec k m) as [->|N]; [reflexivity|]. unfold lget. rewrite app_nil_r. reflexivity. Qed.

Lemma lget_key d m x : In x (lget d m) -> In m (dkeys d).
Proof. unfold lget. intros H. apply dget_key. destruct (dget d m) as [l|]; [exists l; reflexivity|destruct H]. Qed.

Lemma filter_short {A} (f : A -> bool) l : (length (filter f l) <= length l)%nat.
Proof. induction l as [|x l IH]; [reflexivity|]. cbn [filter]. destruct (f x); cbn [length]; lia. Qed.

Section Level.
  Context (n p K : Z) (Hn : 1 <= n) (Pp : prime p) (HK : 1 <= K).
  Let a : Z := p ^ (K - 1) * (p - 1).
  Let pk : Z := p ^ K.
  Definition pfree (x : Z) : bool := negb (x mod p =? 0).
  Definition contrib (d : list (Z * list Z)) (b : Z) : list Z :=
    if n mod (a * b) =? 0 then map (fun x => x * pk) (filter pfree (lget d b)) else [].

  Lemma p2 : 2 <= p. Proof using All. apply prime_ge_2, Pp. Qed.
  Lemma a_pos : 1 <= a. Proof using All. pose proof p2. assert (0 < p ^ (K - 1)) by (apply Z.pow_pos_nonneg; lia). unfold a. nia. Qed.
  Lemma pk_ge : 2 <= pk. Proof using All. pose proof p2. unfold pk. replace K with (1 + (K - 1)) by lia. rewrite Z.pow_add_r, Z.pow_1_r by lia. assert (0 < p ^ (K - 1)) by (apply Z.pow_pos_nonneg; lia). nia. Qed.
  Lemma pfree_pk x : pfree (x * pk) = false.
  Proof using All. unfold pfree. pose proof p2. replace ((x * pk) mod p) with 0; [reflexivity|]. symmetry. apply Z.mod_divide; [lia|]. unfold pk. replace K with (1 + (K - 1)) by lia. rewrite Z.pow_add_r, Z.pow_1_r by lia. exists (x * p ^ (K - 1)). ring. Qed.
  Lemma pfree_spec x : pfree x = true <-> ~ (p | x).
  Proof using All. pose proof p2. unfold pfree. rewrite negb_true_iff, Z.eqb_neq. split; intros H1 H2; apply H1; apply Z.mod_divide; (lia || exact H2). Qed.
  Lemma filter_pk l : filter pfree (map (fun x => x * pk) l) = [].
  Proof using All. induction l as [|x l IH]; [reflexivity|]. cbn [map filter]. rewrite pfree_pk. exact IH. Qed.
  Lemma filter_contrib d b : filter pfree (contrib d b) = [].
  Proof using All. unfold contrib. destruct (n mod (a * b) =? 0); [apply filter_pk|reflexivity]. Qed.

  Definition dict_ok (d : list (Z * list Z)) : Prop := NoDup (dkeys d) /\ forall k, In k (dkeys d) -> 1 <= k.
  Lemma ladd_ok d k v : dict_ok d -> 1 <= k -> dict_ok (ladd d k v).
  Proof using Type. intros (N & H) Hk. split; [apply dset_NoDup, N|]. intros m Hm. apply dkeys_dset_In in Hm as [Hm| ->]; [apply H, Hm|exact Hk]. Qed.

  (** The traversal of one list. *)
  Lemma inner_ok d b : dict_ok d -> 1 <= b ->
    exists d', run (cache_step n p a pk b) (bits (2 * Z.of_nat (length (lget d b)))) (O, d) = Ret d' /\ dict_ok d' /\
      forall m, lget d' m = lget d m ++ (if a * b =? m then contrib d b else []).
  Proof using All.
    intros Ok Hb. pose proof a_pos as Ha. set (L0 := lget d b).
    set (con := fun l => if n mod (a * b) =? 0 then map (fun x => x * pk) (filter pfree l) else []).
    set (I := fun s : nat * list (Z * list Z) => let '(i, d1) := s in exists seen rest, L0 = seen ++ rest /\ dict_ok d1 /\ (forall m, lget d1 m = lget d m ++ (if a * b =? m then con seen else [])) /\
        ((rest <> [] /\ i = length seen) \/ (rest = [] /\ (length seen <= i <= length (lget d1 b))%nat))).
    assert (Cl : forall l, (length (con l) <= length l)%nat). { intros l. unfold con. destruct (_ =? 0); [rewrite map_length; apply filter_short|cbn [length]; lia]. }
    enough (Q : forall s k, I s -> 2 * Z.of_nat (length L0) - Z.of_nat (fst s) <= k ->  k < 2 ^ Z.of_nat (bits (2 * Z.of_nat (length L0))) ->
       exists d', run (cache_step n p a pk b) (bits (2 * Z.of_nat (length L0))) s = Ret d' /\ dict_ok d' /\ forall m, lget d' m = lget d m ++ (if a * b =? m then con L0 else [])).
    { apply (Q (O, d) (2 * Z.of_nat (length L0))); [|cbn [fst]; lia|apply bits_spec]. exists [], L0. split; [reflexivity|]. split; [exact Ok|]. split.
      - intros m. unfold con. cbn [filter map]. destruct (a * b =? m), (n mod (a * b) =? 0); rewrite app_nil_r; reflexivity.
      - destruct L0 as [|x l]; [right; split; [reflexivity|cbn [length]; lia]|left; split; [discriminate|reflexivity]]. }
    intros s k Hs Hk Hk2.
    apply (run_rule (cache_step n p a pk b) I (fun s => 2 * Z.of_nat (length L0) - Z.of_nat (fst s))
      (fun r => exists d', r = Ret d' /\ dict_ok d' /\ forall m, lget d' m = lget d m ++ (if a * b =? m then con L0 else []))); [|exact Hs|lia].
    clear s k Hs Hk Hk2. intros [i d1] (seen & rest & EL & Ok1 & Hm & Hi). unfold cache_step. cbn [fst].
    assert (Lb : lget d1 b = L0 ++ (if a * b =? b then con seen else [])) by (rewrite Hm; reflexivity).
    assert (Len : (length (lget d1 b) <= 2 * length L0)%nat). { rewrite Lb, app_length. pose proof (Cl seen). assert (length seen <= length L0)%nat by (rewrite EL, app_length; lia). destruct (a * b =? b); cbn [length]; lia. }
    destruct (nth_error (lget d1 b) i) as [x|] eqn:Ex.
    - assert (Hi2 : (i < length (lget d1 b))%nat) by (apply nth_error_Some; congruence).
      destruct Hi as [(Nr & ->)|(-> & Hi)].
      + destruct rest as [|y rest]; [congruence|]. assert (x = y). { rewrite Lb, EL, <- app_assoc, nth_error_app2, Nat.sub_diag in Ex by lia. cbn [app nth_error] in Ex. congruence. } subst y.
        split; [|cbn [fst]; lia]. exists (seen ++ [x]), rest. split; [rewrite EL, <- app_assoc; reflexivity|].
        assert (Hc : con (seen ++ [x]) = con seen ++ (if pfree x && (n mod (a * b) =? 0) then [x * pk] else [])). { unfold con. destruct (n mod (a * b) =? 0); [|rewrite andb_false_r; reflexivity]. rewrite filter_app, map_app. cbn [filter]. rewrite andb_true_r. destruct (pfree x); reflexivity. }
        fold (pfree x). split; [destruct (pfree x && _); [apply ladd_ok; [exact Ok1|nia]|exact Ok1]|]. split.
        * intros m. rewrite Hc. destruct (pfree x && _); [rewrite lget_ladd, Hm; destruct (a * b =? m); rewrite ?app_nil_r, <- ?app_assoc; reflexivity|rewrite Hm, app_nil_r; reflexivity].
        * destruct rest as [|z rest]; [right; split; [reflexivity|]|left; split; [discriminate|]]; rewrite app_length; cbn [length]; [|lia].
          split; [lia|]. destruct (pfree x && _); [|lia]. rewrite lget_ladd, app_length. lia.
      + rewrite app_nil_r in EL. subst seen. assert (Px : pfree x = false).
        { rewrite Lb, nth_error_app2 in Ex by lia. apply nth_error_In in Ex. destruct (a * b =? b); [|destruct Ex]. unfold con in Ex. destruct (n mod (a * b) =? 0); [|destruct Ex]. apply in_map_iff in Ex as (z & <- & _). apply pfree_pk. }
        fold (pfree x). rewrite Px. cbn [andb]. split; [|cbn [fst]; lia]. exists L0, []. split; [rewrite app_nil_r; reflexivity|]. split; [exact Ok1|]. split; [exact Hm|]. right. split; [reflexivity|lia].
    - apply nth_error_None in Ex. exists d1. split; [reflexivity|]. split; [exact Ok1|]. destruct Hi as [(Nr & ->)|(-> & _)].
      + exfalso. rewrite Lb, app_length in Ex. rewrite EL, app_length in Ex. destruct rest; [congruence|cbn [length] in Ex; lia].
      + rewrite app_nil_r in EL. subst seen. exact Hm.
  Qed.

  (** The traversal of the keys. *)
  Lemma contrib_ext d d0 b : filter pfree (lget d b) = filter pfree (lget d0 b) -> contrib d b = contrib d0 b.
  Proof using Type. intros E. unfold contrib. rewrite E. reflexivity. Qed.

  Lemma keys_loop d0 (c : nat) : forall bs d, (forall b, In b bs -> 1 <= b) -> dict_ok d -> (forall b, filter pfree (lget d b) = filter pfree (lget d0 b)) ->
    let r := foldM (fun d b => if negb (length d =? c)%nat then Raise RuntimeError else if n <? a * b then Ret d
      else run (cache_step n p a pk b) (bits (2 * Z.of_nat (length (lget d b)))) (O, d)) bs d in
    r = Raise RuntimeError \/ exists d', r = Ret d' /\ dict_ok d' /\ forall m, lget d' m = lget d m ++ flat_map (fun b => if a * b =? m then contrib d0 b else []) bs.
  Proof using All.
    cbv zeta. pose proof a_pos as Ha. induction bs as [|b bs IH]; intros d Hb Ok Eq.
    - right. exists d. split; [reflexivity|]. split; [exact Ok|]. intros m. cbn [flat_map]. rewrite app_nil_r. reflexivity.
    - cbn [foldM]. destruct (negb (length d =? c)%nat); [left; reflexivity|]. pose proof (Hb b (or_introl eq_refl)) as Hb1.
      assert (Step : exists d1, (if n <? a * b then Ret d else run (cache_step n p a pk b) (bits (2 * Z.of_nat (length (lget d b)))) (O, d)) = Ret d1 /\ dict_ok d1 /\ forall m, lget d1 m = lget d m ++ (if a * b =? m then contrib d0 b else [])).
      { destruct (Z.ltb_spec n (a * b)) as [L|L].
        - exists d. split; [reflexivity|]. split; [exact Ok|]. intros m. unfold contrib. rewrite Z.mod_small by lia. destruct (Z.eqb_spec n 0); [lia|]. destruct (a * b =? m); rewrite app_nil_r; reflexivity.
        - destruct (inner_ok d b Ok Hb1) as (d1 & E & Ok1 & H1). exists d1. split; [exact E|]. split; [exact Ok1|]. intros m. rewrite H1, (contrib_ext d d0 b (Eq b)). reflexivity. }
      destruct Step as (d1 & -> & Ok1 & H1). cbn [bind]. destruct (IH d1 (fun x X => Hb x (or_intror X)) Ok1) as [E|(d' & E & Ok' & H')].
      + intros b'. rewrite H1, filter_app. destruct (a * b =? b'); [rewrite filter_contrib|cbn [filter]]; rewrite app_nil_r; apply Eq.
      + left. exact E.
      + right. exists d'. split; [exact E|]. split; [exact Ok'|]. intros m. rewrite H', H1. cbn [flat_map]. rewrite app_assoc. reflexivity.
  Qed.

  Lemma keys_ok d0 : dict_ok d0 -> cache_keys n p a pk d0 = Raise RuntimeError \/
    exists d', cache_keys n p a pk d0 = Ret d' /\ dict_ok d' /\ forall m, lget d' m = lget d0 m ++ flat_map (fun b => if a * b =? m then contrib d0 b else []) (dkeys d0).
  Proof using All.
    intros Ok. unfold cache_keys. destruct (keys_loop d0 (length d0) (dkeys d0) d0 (proj2 Ok) Ok (fun b => eq_refl)) as [->|(d' & -> & Ok' & H')]; [left; reflexivity|]. cbn [bind].
    destruct (negb _); [left; reflexivity|right]. exists d'. auto.
  Qed.

  (** One level: the members with exactly [K] factors [p] are added. *)
  Definition cache_inv (P : Z -> Prop) (d : list (Z * list Z)) : Prop :=
    dict_ok d /\ forall m, NoDup (lget d m) /\ forall x, In x (lget d m) <-> 2 <= x /\ P x /\ totient x = m /\ (m | n).

  Definition over (Q : list Z) (k x : Z) : Prop := (forall q, prime q -> (q | x) -> In q (p :: Q)) /\ ~ (p ^ k | x).

  Lemma over_cases Q x : 2 <= x -> over Q (K + 1) x <-> over Q K x \/ exists x', x = x' * pk /\ ~ (p | x') /\ over Q K x' /\ 1 <= x'.
  Proof using All.
    pose proof p2. intros Hx. split.
    - intros (B & N). destruct (Zdivide_dec (p ^ K) x) as [D|D]; [right|left; split; assumption]. destruct D as (c & Ec). exists c. split; [exact Ec|].
      assert (Nc : ~ (p | c)). { intros (e & Ee). apply N. exists e. rewrite Ec, Ee, Z.pow_add_r, Z.pow_1_r by lia. ring. }
      split; [exact Nc|]. assert (0 < p ^ K) by (apply Z.pow_pos_nonneg; lia). split; [|nia]. split.
      + intros q Pq D. apply B; [exact Pq|]. rewrite Ec. apply Z.divide_mul_l, D.
      + intros D. apply Nc. eapply Z.divide_trans; [|exact D]. replace K with (1 + (K - 1)) by lia. rewrite Z.pow_add_r, Z.pow_1_r by lia. apply Z.divide_factor_l.
    - intros [(B & N)|(x' & -> & N & (B & _) & Hx')]; split.
      + exact B.
      + intros D. apply N. eapply Z.divide_trans; [|exact D]. rewrite Z.pow_add_r by lia. apply Z.divide_factor_l.
      + intros q Pq D. apply prime_mult in D as [D|D]; [apply B; assumption| |exact Pq]. left. symmetry. apply (prime_pow_divide q p K Pq Pp ltac:(lia) D).
      + unfold pk. rewrite Z.pow_add_r, Z.pow_1_r by lia. intros (c & Ec). apply N. exists c. assert (p ^ K <> 0) by (apply Z.pow_nonzero; lia). apply (Z.mul_reg_l _ _ (p ^ K)); [assumption|]. rewrite Z.mul_comm, Ec. ring.
  Qed.

  Lemma level_ok Q d : cache_inv (over Q K) d ->
    let r := cache_keys n p a pk (if n mod a =? 0 then ladd d a pk else d) in
    r = Raise RuntimeError \/ exists d', r = Ret d' /\ cache_inv (over Q (K + 1)) d'.
  Proof using All.
    cbv zeta. intros (Ok & Inv). pose proof p2 as Hp. pose proof a_pos as Ha. pose proof pk_ge as Hpk. set (d0 := if n mod a =? 0 then ladd d a pk else d).
    assert (Ok0 : dict_ok d0) by (unfold d0; destruct (n mod a =? 0); [apply ladd_ok; assumption|exact Ok]).
    assert (L0 : forall m, lget d0 m = lget d m ++ (if (n mod a =? 0) && (a =? m) then [pk] else [])). { intros m. unfold d0. destruct (n mod a =? 0); cbn [andb]; [apply lget_ladd|rewrite app_nil_r; reflexivity]. }
    assert (NF : forall m x, In x (lget d m) -> ~ (pk | x)) by (intros m x H; apply Inv in H; apply H).
    assert (F0 : forall b, filter pfree (lget d0 b) = filter pfree (lget d b)). { intros b. rewrite L0, filter_app. replace (filter pfree (if (n mod a =? 0) && (a =? b) then [pk] else [])) with (@nil Z); [apply app_nil_r|]. destruct (_ && _); [|reflexivity]. cbn [filter]. replace pk with (1 * pk) by ring. rewrite pfree_pk. reflexivity. }
    destruct (keys_ok d0 Ok0) as [E|(d' & E & Ok' & H')]; [left; exact E|right]. exists d'. split; [exact E|]. split; [exact Ok'|].
    assert (Con : forall b x, In x (contrib d0 b) <-> (a * b | n) /\ exists x', In x' (lget d b) /\ ~ (p | x') /\ x = x' * pk).
    { intros b x. unfold contrib. rewrite F0. destruct (Z.eq_dec b 0) as [->|Nb].
      - rewrite Z.mul_0_r, Zmod_0_r. destruct (Z.eqb_spec n 0); [lia|]. split; [intros []|]. intros (D & _). apply Z.divide_0_l in D. lia.
      - destruct (Z.eqb_spec (n mod (a * b)) 0) as [E0|E0].
        + apply Z.mod_divide in E0; [|nia]. rewrite in_map_iff. setoid_rewrite filter_In. setoid_rewrite pfree_spec. split; [intros (x' & <- & H1 & H2); split; [exact E0|exists x'; auto]|intros (_ & x' & H1 & H2 & ->); exists x'; auto].
        + split; [intros []|]. intros (D & _). apply Z.mod_divide in D; [contradiction|nia]. }
    intros m. split.
    - rewrite H', L0. apply NoDup_app_intro.
      + apply NoDup_app_intro; [apply Inv|destruct (_ && _); [constructor; [intros []|constructor]|constructor]|]. intros x H1 H2. destruct (_ && _); [|destruct H2]. destruct H2 as [<-|[]]. apply (NF m pk H1), Z.divide_refl.
      + apply NoDup_flat_map; [apply Ok0| |].
        * intros b _. destruct (a * b =? m); [|constructor]. unfold contrib. destruct (n mod (a * b) =? 0); [|constructor]. rewrite F0. apply NoDup_map_inj; [apply NoDup_filter, Inv|]. intros x y _ _ H. nia.
        * intros b b' x _ _ H1 H2. destruct (Z.eqb_spec (a * b) m), (Z.eqb_spec (a * b') m); try contradiction. nia.
      + intros x H1 H2. apply in_flat_map in H2 as (b & _ & H2). destruct (a * b =? m); [|destruct H2]. apply Con in H2 as (_ & x' & Hx' & N' & ->). apply in_app_iff in H1 as [H1|H1].
        * apply (NF m _ H1), Z.divide_factor_r.
        * destruct (_ && _); [|destruct H1]. destruct H1 as [H1|[]]. apply Inv in Hx'. nia.
    - intros x. rewrite H', L0, !in_app_iff, in_flat_map.
      assert (Phi : forall x', 1 <= x' -> ~ (p | x') -> totient (x' * pk) = a * totient x'). { intros x' Hx' N'. rewrite (Z.mul_comm x'). unfold pk, a. apply totient_strip; (assumption || lia). }
      split.
      + intros [[H1|H1]|(b & Hb & H1)].
        * apply Inv in H1 as (Hx & O & Et & D). split; [exact Hx|]. split; [apply (over_cases Q x Hx); left; exact O|auto].
        * destruct (Z.eqb_spec (n mod a) 0) as [E0|]; [|destruct H1]. destruct (Z.eqb_spec a m) as [<-|]; [|destruct H1]. cbn [andb] in H1. destruct H1 as [<-|[]]. apply Z.mod_divide in E0; [|lia].
          split; [exact Hpk|]. split; [|split; [|exact E0]].
          -- apply (over_cases Q pk Hpk). right. exists 1. split; [ring|]. split; [intros D; apply Z.divide_1_r in D; lia|]. split; [|lia]. split; [intros q Pq D; apply Z.divide_1_r in D; pose proof (prime_ge_2 q Pq); lia|]. intros D. apply Z.divide_1_r in D. fold pk in D. lia.
          -- replace pk with (1 * pk) by ring. rewrite Phi; [change (totient 1) with 1; ring|lia|]. intros D; apply Z.divide_1_r in D; lia.
        * destruct (Z.eqb_spec (a * b) m) as [<-|]; [|destruct H1]. apply Con in H1 as (D & x' & Hx' & N' & ->). apply Inv in Hx' as (Hx & O & Et & Db). split; [nia|]. split; [|split; [|exact D]].
          -- apply over_cases; [nia|]. right. exists x'. split; [reflexivity|]. split; [exact N'|]. split; [exact O|lia].
          -- rewrite Phi by (lia || exact N'). rewrite Et. reflexivity.
      + intros (Hx & O & Et & D). apply (over_cases Q x Hx) in O as [O|(x' & -> & N' & O & Hx')]; [left; left; apply Inv; auto|].
        rewrite Phi in Et by assumption. destruct (Z.eq_dec x' 1) as [->|N1].
        * left. right. change (totient 1) with 1 in Et. rewrite Z.mul_1_r in Et. subst m. apply Z.mod_divide in D; [|lia]. rewrite D, !Z.eqb_refl. left. ring.
        * right. assert (Db : (totient x' | n)) by (eapply Z.divide_trans; [|exact D]; rewrite <- Et; apply Z.divide_factor_r).
          assert (Hin : In x' (lget d (totient x'))) by (apply Inv; split; [lia|]; auto). exists (totient x'). split; [apply lget_key with (x := x'); rewrite L0; apply in_app_iff; left; exact Hin|].
          rewrite Et, Z.eqb_refl. apply Con. rewrite Et. split; [exact D|]. exists x'. auto.
  Qed.
End Level.

(** ** One prime, then all of them *)
Lemma cache_inv_ext n P P' d : (forall x m, 2 <= x -> totient x = m -> (m | n) -> P x <-> P' x) -> cache_inv n P d -> cache_inv n P' d.
Proof.
  intros H (Ok & Inv). split; [exact Ok|]. intros m. split; [apply Inv|]. intros x. rewrite (proj2 (Inv m) x). split; intros (Hx & Px & E & D); (split; [exact Hx|split; [apply (H x m Hx E D); exact Px|auto]]).
Qed.

Lemma prime_ok n p Q d : 1 <= n -> prime p -> ~ In p Q -> cache_inv n (fun x => forall q, prime q -> (q | x) -> In q Q) d ->
  let r := run (cache_power n p) (bits (n + 2)) (p - 1, p, d) in
  r = Raise RuntimeError \/ exists d', r = Ret d' /\ cache_inv n (fun x => forall q, prime q -> (q | x) -> In q (p :: Q)) d'.
Proof.
  cbv zeta. intros Hn Pp NQ Inv. pose proof (prime_ge_2 p Pp) as Hp.
  apply (run_rule (cache_power n p) (fun s => let '(a, pk, d) := s in exists K, 1 <= K /\ a = p ^ (K - 1) * (p - 1) /\ pk = p ^ K /\ cache_inv n (over p Q K) d)
    (fun s => Z.max 0 (n + 1 - fst (fst s)))
    (fun r => r = Raise RuntimeError \/ exists d', r = Ret d' /\ cache_inv n (fun x => forall q, prime q -> (q | x) -> In q (p :: Q)) d')).
  - intros [[a pk] d1] (K & HK & Ea & Epk & Inv1). unfold cache_power. cbn [fst]. pose proof (a_pos n p K Hn Pp HK) as Ha. rewrite <- Ea in Ha. destruct (Z.leb_spec a n) as [L|L].
    + pose proof (level_ok n p K Hn Pp HK Q d1 Inv1) as St. cbv zeta in St. rewrite <- Ea, <- Epk in St. destruct St as [->|(d' & -> & Inv')]; [left; reflexivity|]. cbn [fst]. split; [|nia].
      exists (K + 1). split; [lia|]. replace (K + 1 - 1) with (1 + (K - 1)) by lia. rewrite !Z.pow_add_r, Z.pow_1_r by lia. split; [rewrite Ea; ring|]. split; [rewrite Epk; ring|exact Inv'].
    + right. exists d1. split; [reflexivity|]. revert Inv1. apply cache_inv_ext. intros x m Hx Et D. split; [intros (B & _); exact B|]. intros B. split; [exact B|]. intros Dp. destruct (strip_exists p x Pp ltac:(lia)) as (k & y & Hk & Ex & Ny & Hy).
      assert (K <= k). { destruct (Z_lt_le_dec k K) as [G|]; [exfalso|assumption]. apply Ny. destruct Dp as (c & Ec). exists (c * p ^ (K - k - 1)). assert (p ^ k <> 0) by (apply Z.pow_nonzero; lia). apply (Z.mul_reg_l _ _ (p ^ k)); [assumption|]. rewrite <- Ex, Ec. replace K with (k + 1 + (K - k - 1)) at 1 by lia. rewrite !Z.pow_add_r, Z.pow_1_r by lia. ring. }
      assert (Da : (a | n)). { eapply Z.divide_trans; [|exact D]. rewrite <- Et, Ex, totient_strip, Ea by (assumption || lia). replace (k - 1) with ((K - 1) + (k - K)) by lia. rewrite Z.pow_add_r by lia. exists (p ^ (k - K) * totient y). ring. }
      apply Z.divide_pos_le in Da; lia.
  - exists 1. split; [lia|]. rewrite Z.sub_diag, Z.pow_0_r, Z.pow_1_r. split; [ring|]. split; [reflexivity|]. revert Inv. apply cache_inv_ext. intros x m Hx Et D. unfold over. rewrite Z.pow_1_r. split.
    + intros B. split; [intros q Pq Dq; right; apply B; assumption|]. intros Dp. apply NQ, B; assumption.
    + intros (B & N) q Pq Dq. destruct (B q Pq Dq) as [<-|]; [contradiction|assumption].
  - cbn [fst]. pose proof (bits_spec (n + 2)). lia.
Qed.

Lemma primes_loop n : 1 <= n -> forall ps Q d, NoDup ps -> (forall p, In p ps -> prime p /\ ~ In p Q) -> cache_inv n (fun x => forall q, prime q -> (q | x) -> In q Q) d ->
  let r := foldM (fun d p => run (cache_power n p) (bits (n + 2)) (p - 1, p, d)) ps d in
  r = Raise RuntimeError \/ exists d' Q', r = Ret d' /\ (forall q, In q Q' <-> In q ps \/ In q Q) /\ cache_inv n (fun x => forall q, prime q -> (q | x) -> In q Q') d'.
Proof.
  intros Hn. cbv zeta. induction ps as [|p ps IH]; intros Q d ND H Inv; [right; exists d, Q; split; [reflexivity|]; split; [cbn [In]; tauto|exact Inv]|].
  inversion ND as [|? ? ND1 ND2]; subst. destruct (H p (or_introl eq_refl)) as (Pp & NQ). cbn [foldM]. destruct (prime_ok n p Q d Hn Pp NQ Inv) as [->|(d1 & -> & Inv1)]; [left; reflexivity|]. cbn [bind].
  destruct (IH (p :: Q) d1 ND2) as [E|(d' & Q' & E & IQ & Inv')]; [|exact Inv1|left; exact E|].
  - intros q Hq. destruct (H q (or_intror Hq)) as (Pq & NQq). split; [exact Pq|]. intros [->|X]; contradiction.
  - right. exists d', Q'. split; [exact E|]. split; [|exact Inv']. intros q. rewrite IQ. cbn [In]. tauto.
Qed.

Lemma inverse_phi_ok fact n l0 : 1 <= n -> fact n = Ret l0 -> factorization n l0 ->
  inverse_phi fact n = Raise RuntimeError \/
  exists l, inverse_phi fact n = Ret l /\ StronglySorted Z.lt l /\ forall x, In x l <-> 2 <= x /\ totient x = n.
Proof.
  intros Hn Ef F. unfold inverse_phi. destruct (divisors_ok fact n l0) as (ds & -> & Sd & Id); [rewrite Z.abs_eq by lia; exact Ef|rewrite Z.abs_eq by lia; exact F|]. cbn [bind].
  destruct (prime_filter (map (fun d => d + 1) ds)) as (ps & -> & Ip & NDp). cbn [bind].
  assert (ND : NoDup ps). { apply NDp, NoDup_map_inj; [|intros x y _ _ H; lia]. clear - Sd. induction Sd as [|x l S IH H]; constructor; [|exact IH]. intros X. rewrite Forall_forall in H. specialize (H x X). lia. }
  destruct (primes_loop n Hn (rev ps) [] []) as [->|(d & Q & -> & IQ & Ok & Inv)]; [apply NoDup_rev, ND| | |left; reflexivity|].
  - intros p Hp. apply in_rev in Hp. apply Ip in Hp. split; [apply Hp|intros []].
  - split; [split; [constructor|intros k []]|]. intros m. split; [constructor|]. intros x. split; [intros []|]. intros (Hx & B & _). destruct (prime_divisor_exists x Hx) as (q & Pq & D). destruct (B q Pq D).
  - right. cbn [bind]. eexists. split; [reflexivity|]. split; [apply zsort_strict, Inv|]. intros x. rewrite zsort_In, (proj2 (Inv n) x). split; [intros (Hx & _ & Et & _); auto|]. intros (Hx & Et). split; [exact Hx|]. split; [|split; [exact Et|apply Z.divide_refl]].
    intros q Pq D. apply IQ. left. apply in_rev. rewrite rev_involutive. apply Ip. split; [|exact Pq]. pose proof (prime_ge_2 q Pq). apply in_map_iff. exists (q - 1). split; [lia|]. apply Id. split; [lia|].
    destruct (strip_exists q x Pq ltac:(lia)) as (k & m & Hk & Em & Nm & Hm). assert (k <> 0). { intros ->. apply Nm. rewrite Z.pow_0_r, Z.mul_1_l in Em. rewrite <- Em. exact D. }
    rewrite <- Et, Em, totient_strip by (assumption || lia). exists (q ^ (k - 1) * totient m). ring.
Qed.
