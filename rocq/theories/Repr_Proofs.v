(** * Numerals and formulas *)
From Coq Require Import Ascii String Decimal DecimalString DecimalZ DecimalFacts ZArith List Bool Lia.
From Verif Require Import Base Py Lists Repr_Spec Repr_Model.
Import ListNotations.
Open Scope Z_scope.

(** ** Decimal numerals *)
Definition numchar (c : ascii) : Prop := digit c \/ c = "-"%char.
Definition stops (r : text) : Prop := match r with [] => True | c :: _ => ~ numchar c end.

Lemma digit_space : ~ digit " ". Proof. unfold digit, txt. cbn. intros H. repeat destruct H as [H|H]; try discriminate; exact H. Qed.

Lemma uint_digits d : Forall digit (txt (NilEmpty.string_of_uint d)).
Proof. induction d; cbn; constructor; try exact IHd; unfold digit, txt; cbn; tauto. Qed.

Lemma uint0_digits d : Forall digit (txt (NilZero.string_of_uint d)) /\ txt (NilZero.string_of_uint d) <> [].
Proof.
  destruct d; try (split; [exact (uint_digits _)|discriminate]). split; [|discriminate]. constructor; [unfold digit, txt; cbn; tauto|constructor].
Qed.

Lemma str_pos z : 0 <= z -> Forall digit (str z) /\ str z <> [].
Proof. intros H. unfold str. destruct z; try lia; apply uint0_digits. Qed.

Lemma str_neg z : z < 0 -> str z = txt "-" ++ str (- z).
Proof. intros H. destruct z; try lia. reflexivity. Qed.

Lemma str_numchars z : Forall numchar (str z) /\ str z <> [].
Proof.
  destruct (Z.lt_ge_cases z 0) as [H|H].
  - rewrite str_neg by exact H. split; [|discriminate]. constructor; [right; reflexivity|].
    destruct (str_pos (- z) ltac:(lia)) as (F & _). eapply Forall_impl; [|exact F]. intros c Hc. left. exact Hc.
  - destruct (str_pos z ltac:(lia)) as (F & N). split; [|exact N]. eapply Forall_impl; [|exact F]. intros c Hc. left. exact Hc.
Qed.

Lemma txt_inj s t : txt s = txt t -> s = t.
Proof. intros H. rewrite <- (string_of_list_ascii_of_string s), <- (string_of_list_ascii_of_string t). f_equal. exact H. Qed.

Lemma to_int_nonnil z : Z.to_int z <> Pos Nil /\ Z.to_int z <> Neg Nil.
Proof.
  destruct z as [|p|p]; cbn; split; try discriminate; intros E; injection E as E; exact (DecimalPos.Unsigned.to_uint_nonnil p E).
Qed.

Lemma str_inj z z' : str z = str z' -> z = z'.
Proof.
  intros H. apply txt_inj in H. apply (f_equal NilZero.int_of_string) in H.
  rewrite !NilZero.isi in H by apply to_int_nonnil. injection H as H. rewrite <- (of_to z), <- (of_to z'), H. reflexivity.
Qed.

(** ** What is read up to the first other character *)
Lemma span_inj (P : ascii -> Prop) l l' r r' : Forall P l -> Forall P l' ->
  match r with [] => True | c :: _ => ~ P c end -> match r' with [] => True | c :: _ => ~ P c end ->
  l ++ r = l' ++ r' -> l = l' /\ r = r'.
Proof.
  intros F. revert l'. induction F as [|c l Hc F IH]; intros l' F' Hr Hr' E.
  - destruct F' as [|c' l' Hc' F']; [auto|]. cbn [app] in E. subst r. contradiction.
  - destruct F' as [|c' l' Hc' F']; cbn [app] in E; [subst r'; contradiction|]. injection E as -> E.
    destruct (IH l' F' Hr Hr' E) as (-> & ->). auto.
Qed.

Lemma num_inj z z' r r' : stops r -> stops r' -> str z ++ r = str z' ++ r' -> z = z' /\ r = r'.
Proof.
  intros Hr Hr' E. destruct (str_numchars z) as (F & _), (str_numchars z') as (F' & _).
  destruct (span_inj numchar _ _ _ _ F F' Hr Hr' E) as (E1 & E2). split; [apply str_inj, E1|exact E2].
Qed.

Lemma str_head z r : 0 <= z -> exists c s, str z ++ r = c :: s /\ digit c.
Proof.
  intros H. destruct (str_pos z H) as (F & N). destruct (str z) as [|c s]; [congruence|]. inversion_clear F. exists c, (s ++ r). auto.
Qed.

Lemma num_head z r : exists c s, str z ++ r = c :: s /\ numchar c.
Proof. destruct (str_numchars z) as (F & N). destruct (str z) as [|c s]; [congruence|]. inversion_clear F. exists c, (s ++ r). auto. Qed.

Lemma not_num c : c = "*"%char \/ c = " "%char \/ c = "^"%char \/ c = ")"%char \/ c = "]"%char \/ c = "010"%char \/ c = "."%char -> ~ numchar c.
Proof.
  intros H [N|N].
  - unfold digit, txt in N. cbn in N. repeat destruct H as [H|H]; subst; repeat destruct N as [N|N]; try discriminate; exact N.
  - repeat destruct H as [H|H]; subst; discriminate.
Qed.

(** ** One term *)
Section Term.
  Context (v : text).
  Hypothesis Hv : variable_name v.

  Definition spaced (r : text) : Prop := match r with [] => True | c :: _ => c = " "%char end.

  Lemma spaced_stops r : spaced r -> stops r.
  Proof using. destruct r as [|c r]; [exact (fun H => H)|]. cbn. intros ->. apply not_num. auto. Qed.

  Lemma v_head r : exists c s, v ++ r = c :: s /\ ~ digit c /\ c <> "-"%char.
  Proof using Hv. destruct Hv as (c & v' & -> & H). exists c, (v' ++ r). auto. Qed.

  Lemma power_inj d d' r r' : 1 <= d -> 1 <= d' -> spaced r -> spaced r' ->
    (if 1 <? d then txt "^" ++ str d else []) ++ r = (if 1 <? d' then txt "^" ++ str d' else []) ++ r' -> d = d' /\ r = r'.
  Proof using.
    intros Hd Hd' Hr Hr' E. destruct (Z.ltb_spec 1 d), (Z.ltb_spec 1 d').
    - rewrite <- !app_assoc in E. apply app_inv_head in E. apply num_inj in E; [exact E|apply spaced_stops, Hr|apply spaced_stops, Hr'].
    - exfalso. cbn in E. destruct r' as [|c r']; [discriminate|]. injection E as <- _. discriminate Hr'.
    - exfalso. cbn in E. destruct r as [|c r]; [discriminate|]. injection E as -> _. discriminate Hr.
    - cbn [app] in E. split; [lia|exact E].
  Qed.

  Lemma print_term_split d c : print_term v d c =
    if d =? 0 then str c else if c =? 1 then v ++ (if 1 <? d then txt "^" ++ str d else []) else str c ++ txt "*" ++ v ++ (if 1 <? d then txt "^" ++ str d else []).
  Proof using. unfold print_term. destruct (d =? 0); [reflexivity|]. destruct (c =? 1); [reflexivity|]. rewrite <- app_assoc. reflexivity. Qed.

  Lemma print_term_inj d c d' c' r r' : 0 <= d -> 0 <= c -> 0 <= d' -> 0 <= c' -> spaced r -> spaced r' ->
    print_term v d c ++ r = print_term v d' c' ++ r' -> d = d' /\ c = c' /\ r = r'.
  Proof using Hv.
    intros Hd Hc Hd' Hc' Hr Hr' E. rewrite !print_term_split in E.
    assert (St : forall k s, stops ((txt "*" ++ v ++ k) ++ s)) by (intros k s; cbn; apply not_num; auto).
    assert (V : forall z k s t, 0 <= z -> (v ++ k) ++ s = str z ++ t -> False).
    { intros z k s t Hz X. destruct (str_head z t Hz) as (a & u & E1 & Ha). destruct (v_head (k ++ s)) as (b & w & E2 & Hb & _).
      rewrite E1, <- app_assoc, E2 in X. injection X as -> _. contradiction. }
    assert (Sp : forall k s t, spaced t -> t = (txt "*" ++ v ++ k) ++ s -> False) by (intros k s t Ht ->; discriminate Ht).
    destruct (Z.eqb_spec d 0) as [D|D], (Z.eqb_spec d' 0) as [D'|D'].
    - apply num_inj in E; [|apply spaced_stops, Hr|apply spaced_stops, Hr']. destruct E. split; [lia|auto].
    - exfalso. destruct (Z.eqb_spec c' 1) as [C'|C']; [exact (V _ _ _ _ Hc (eq_sym E))|]. rewrite <- app_assoc in E.
      apply num_inj in E; [|apply spaced_stops, Hr|apply St]. destruct E as (_ & E). exact (Sp _ _ _ Hr E).
    - exfalso. destruct (Z.eqb_spec c 1) as [C|C]; [exact (V _ _ _ _ Hc' E)|]. rewrite <- app_assoc in E.
      apply num_inj in E; [|apply St|apply spaced_stops, Hr']. destruct E as (_ & E). exact (Sp _ _ _ Hr' (eq_sym E)).
    - destruct (Z.eqb_spec c 1) as [C|C], (Z.eqb_spec c' 1) as [C'|C'].
      + rewrite <- !app_assoc in E. apply app_inv_head in E. apply power_inj in E; [|lia|lia|exact Hr|exact Hr']. destruct E. subst. auto.
      + exfalso. rewrite <- (app_assoc (str c')) in E. exact (V _ _ _ _ Hc' E).
      + exfalso. rewrite <- (app_assoc (str c)) in E. exact (V _ _ _ _ Hc (eq_sym E)).
      + rewrite <- (app_assoc (str c)), <- (app_assoc (str c')) in E. apply num_inj in E; [|apply St|apply St]. destruct E as (-> & E).
        rewrite <- !app_assoc in E. apply app_inv_head in E. apply app_inv_head in E. apply power_inj in E; [|lia|lia|exact Hr|exact Hr']. destruct E. auto.
  Qed.

  Lemma print_term_head d c r : 0 <= c -> exists a s, print_term v d c ++ r = a :: s /\ a <> "-"%char.
  Proof using Hv.
    intros Hc. assert (ND : ~ digit "-") by (unfold digit, txt; cbn; intros H; repeat destruct H as [H|H]; try discriminate; exact H).
    rewrite print_term_split. destruct (d =? 0); [|destruct (c =? 1)].
    - destruct (str_head c r Hc) as (a & s & E & H). exists a, s. split; [exact E|]. intros ->. contradiction.
    - rewrite <- app_assoc. destruct (v_head ((if 1 <? d then txt "^" ++ str d else []) ++ r)) as (a & s & E & H & H'). exists a, s. auto.
    - rewrite <- (app_assoc (str c)). destruct (str_head c ((txt "*" ++ v ++ (if 1 <? d then txt "^" ++ str d else [])) ++ r) Hc) as (a & s & E & H).
      exists a, s. split; [exact E|]. intros ->. contradiction.
  Qed.

  (** ** Sums of terms *)
  Definition signed_term (t : Z * Z) : text := (if snd t <? 0 then txt " - " else txt " + ") ++ print_term v (fst t) (Z.abs (snd t)).
  Definition tail (l : list (Z * Z)) : text := flat_map signed_term l.
  Definition render (t : Z * Z) (l : list (Z * Z)) : text :=
    (if snd t <? 0 then txt "-" else []) ++ print_term v (fst t) (Z.abs (snd t)) ++ tail l.

  Lemma tail_spaced l : spaced (tail l).
  Proof using. destruct l as [|t l]; [exact I|]. cbn [tail flat_map]. unfold signed_term. destruct (snd t <? 0); reflexivity. Qed.

  Lemma tail_inj l l' : (forall t, In t l -> 0 <= fst t) -> (forall t, In t l' -> 0 <= fst t) -> tail l = tail l' -> l = l'.
  Proof using Hv.
    revert l'. induction l as [|[d c] l IH]; intros [|[d' c'] l'] H H' E; [reflexivity|exfalso|exfalso|].
    - cbn [tail flat_map] in E. unfold signed_term in E. cbn [snd] in E. destruct (c' <? 0); discriminate E.
    - cbn [tail flat_map] in E. unfold signed_term in E. cbn [snd] in E. destruct (c <? 0); discriminate E.
    - pose proof (H (d, c) (or_introl eq_refl)) as Hd. pose proof (H' (d', c') (or_introl eq_refl)) as Hd'. cbn [fst] in Hd, Hd'.
      cbn [tail flat_map] in E. fold (tail l) (tail l') in E. unfold signed_term in E. cbn [fst snd] in E. rewrite <- !app_assoc in E.
      assert (X : print_term v d (Z.abs c) ++ tail l = print_term v d' (Z.abs c') ++ tail l' /\ (c <? 0) = (c' <? 0)).
      { destruct (c <? 0), (c' <? 0); try discriminate E; apply app_inv_head in E; auto. }
      destruct X as (X & Sg). apply print_term_inj in X; [|lia..|apply tail_spaced|apply tail_spaced].
      destruct X as (-> & Ea & Et). f_equal; [f_equal; lia|]. apply IH; [intros t Ht; apply H; right; exact Ht|intros t Ht; apply H'; right; exact Ht|exact Et].
  Qed.

  Lemma render_inj t l t' l' : 0 <= fst t -> 0 <= fst t' -> (forall u, In u l -> 0 <= fst u) -> (forall u, In u l' -> 0 <= fst u) ->
    render t l = render t' l' -> t = t' /\ l = l'.
  Proof using Hv.
    destruct t as [d c], t' as [d' c']. cbn [fst snd]. intros Hd Hd' H H' E. unfold render in E. cbn [fst snd] in E.
    assert (X : print_term v d (Z.abs c) ++ tail l = print_term v d' (Z.abs c') ++ tail l' /\ (c <? 0) = (c' <? 0)).
    { destruct (print_term_head d (Z.abs c) (tail l) ltac:(lia)) as (a & s & Ea & Na). destruct (print_term_head d' (Z.abs c') (tail l') ltac:(lia)) as (b & u & Eb & Nb).
      destruct (c <? 0), (c' <? 0); cbn in E.
      - injection E as E. auto.
      - exfalso. rewrite Eb in E. injection E as E _. congruence.
      - exfalso. rewrite Ea in E. injection E as E _. congruence.
      - auto. }
    destruct X as (X & Sg). apply print_term_inj in X; [|lia..|apply tail_spaced|apply tail_spaced].
    destruct X as (-> & Ea & Et). split; [f_equal; lia|]. apply tail_inj; assumption.
  Qed.

  (** ** Values *)
  Definition tval (x : Z) (t : Z * Z) : Z := snd t * x ^ fst t.

  Lemma print_term_value x d c : 0 <= d -> 0 <= c -> term v x (print_term v d c) (c * x ^ d).
  Proof using.
    intros Hd Hc. rewrite print_term_split. destruct (Z.eqb_spec d 0) as [->|D].
    - rewrite Z.pow_0_r, Z.mul_1_r. apply term_factor, factor_num, Hc.
    - assert (F : factor v x (v ++ (if 1 <? d then txt "^" ++ str d else [])) (x ^ d)).
      { destruct (Z.ltb_spec 1 d); [apply factor_pow; lia|]. replace d with 1 by lia. rewrite app_nil_r, Z.pow_1_r. apply factor_var. }
      destruct (Z.eqb_spec c 1) as [->|C].
      + rewrite Z.mul_1_l. apply term_factor, F.
      + apply term_mul; [apply term_factor, factor_num, Hc|exact F].
  Qed.

  Lemma tail_value x l s a : (forall u, In u l -> 0 <= fst u) -> formula v x s a -> formula v x (s ++ tail l) (a + zsum (map (tval x) l)).
  Proof using.
    revert s a. induction l as [|[d c] l IH]; intros s a H F.
    - cbn [tail flat_map map]. rewrite app_nil_r. change (zsum []) with 0. rewrite Z.add_0_r. exact F.
    - cbn [tail flat_map map]. fold (tail l). change (zsum (?b :: ?m)) with (b + zsum m). rewrite app_assoc, Z.add_assoc. apply IH; [intros u Hu; apply H; right; exact Hu|].
      pose proof (H (d, c) (or_introl eq_refl)) as Hd. cbn [fst] in Hd. pose proof (print_term_value x d (Z.abs c) Hd ltac:(lia)) as T.
      unfold signed_term, tval. cbn [fst snd]. destruct (Z.ltb_spec c 0).
      + replace (a + c * x ^ d) with (a - Z.abs c * x ^ d) by (rewrite Z.abs_neq by lia; ring). apply formula_sub; assumption.
      + replace (a + c * x ^ d) with (a + Z.abs c * x ^ d) by (rewrite Z.abs_eq by lia; ring). apply formula_add; assumption.
  Qed.

  Lemma render_value x t l : 0 <= fst t -> (forall u, In u l -> 0 <= fst u) -> formula v x (render t l) (tval x t + zsum (map (tval x) l)).
  Proof using.
    destruct t as [d c]. cbn [fst snd]. intros Hd H. unfold render, tval at 1. cbn [fst snd]. rewrite app_assoc. apply tail_value; [exact H|].
    pose proof (print_term_value x d (Z.abs c) Hd ltac:(lia)) as T. destruct (Z.ltb_spec c 0).
    - replace (c * x ^ d) with (- (Z.abs c * x ^ d)) by (rewrite Z.abs_neq by lia; ring). apply formula_neg, T.
    - rewrite Z.abs_eq in * by lia. apply formula_term, T.
  Qed.
End Term.
