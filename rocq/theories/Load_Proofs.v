(** * Text files: lines, words and numerals *)
From Coq Require Import Ascii String DecimalString DecimalZ ZArith List Bool Lia.
From Verif Require Import Base Py Dict Graph_Model Repr_Spec Repr_Proofs Load_Spec Load_Model.
Import ListNotations.
Open Scope Z_scope.

Lemma aeqb_refl c : Ascii.eqb c c = true. Proof. apply Ascii.eqb_eq. reflexivity. Qed.
Lemma aeqb_neq c d : c <> d -> Ascii.eqb c d = false. Proof. apply Ascii.eqb_neq. Qed.

Lemma starts_true c t : starts c t = true <-> exists t', t = c :: t'.
Proof.
  split.
  - destruct t as [|c' t]; [discriminate|]. cbn. intros E. apply Ascii.eqb_eq in E. subst. eauto.
  - intros (t' & ->). cbn. apply aeqb_refl.
Qed.
Lemma starts_false c t : (forall t', t <> c :: t') -> starts c t = false.
Proof. intros H. destruct (starts c t) eqn:E; [|reflexivity]. apply starts_true in E as (t' & E). destruct (H t' E). Qed.

(** ** Lines *)
Lemma newlines_plain b t : plain b -> newlines (b ++ t) = b ++ newlines t.
Proof.
  intros (_ & H). induction b as [|c b IH]; [reflexivity|]. cbn [app newlines].
  rewrite aeqb_neq by (intros ->; apply H; left; reflexivity). f_equal. apply IH. intros X. apply H. right. exact X.
Qed.

Lemma lines_from_plain b : forall cur t, plain b -> lines_from cur (b ++ t) = lines_from (cur ++ b) t.
Proof.
  induction b as [|c b IH]; intros cur t (H1 & H2); [rewrite app_nil_r; reflexivity|]. cbn [app lines_from].
  rewrite aeqb_neq by (intros ->; apply H1; left; reflexivity). rewrite IH by (split; intros X; [apply H1|apply H2]; right; exact X).
  rewrite <- app_assoc. reflexivity.
Qed.

Lemma lines_lf_eq b t : plain b -> lines_from [] (b ++ LF :: t) = (b ++ [LF]) :: lines_from [] t.
Proof. intros H. rewrite lines_from_plain by exact H. cbn [lines_from app]. rewrite aeqb_refl. reflexivity. Qed.

Lemma file_lines_eq t ls : file_lines t ls -> lines t = ls.
Proof.
  unfold lines. induction 1 as [|b Hb Hn|b t ls Hb H IH|b t ls Hb H IH|b t ls Hb Ht H IH].
  - reflexivity.
  - rewrite <- (app_nil_r b) at 1. rewrite newlines_plain by exact Hb. cbn [newlines]. rewrite lines_from_plain by exact Hb. cbn [lines_from app].
    destruct b; [congruence|reflexivity].
  - rewrite newlines_plain by exact Hb. cbn [newlines]. rewrite aeqb_neq by discriminate. rewrite lines_lf_eq by exact Hb. f_equal. exact IH.
  - rewrite newlines_plain by exact Hb. cbn [newlines]. rewrite aeqb_refl. cbn [starts]. rewrite aeqb_refl, aeqb_neq by discriminate.
    rewrite lines_lf_eq by exact Hb. f_equal. exact IH.
  - rewrite newlines_plain by exact Hb. cbn [newlines]. rewrite aeqb_refl. rewrite starts_false by exact Ht.
    rewrite lines_lf_eq by exact Hb. f_equal. exact IH.
Qed.

Lemma first_end t : plain t \/ exists b c t', t = b ++ c :: t' /\ plain b /\ (c = LF \/ c = CR).
Proof.
  induction t as [|c t IH]; [left; split; exact (fun H => H)|].
  destruct (ascii_dec c LF) as [->|N1]; [right; exists [], LF, t; repeat split; auto|].
  destruct (ascii_dec c CR) as [->|N2]; [right; exists [], CR, t; repeat split; auto|].
  destruct IH as [(H1 & H2)|(b & c' & t' & -> & (H1 & H2) & Hc)].
  - left. split; intros [X|X]; [exact (N1 X)|exact (H1 X)|exact (N2 X)|exact (H2 X)].
  - right. exists (c :: b), c', t'. split; [reflexivity|]. split; [|exact Hc]. split; intros [X|X]; [exact (N1 X)|exact (H1 X)|exact (N2 X)|exact (H2 X)].
Qed.

Lemma file_lines_ex : forall n t, (length t <= n)%nat -> exists ls, file_lines t ls.
Proof.
  induction n as [|n IH]; intros t Hl.
  - destruct t; [|cbn in Hl; lia]. exists []. constructor.
  - destruct (first_end t) as [H|(b & c & t' & -> & Hb & [->| ->])].
    + destruct t as [|c t]; [exists []; constructor|]. exists [c :: t]. constructor; [exact H|discriminate].
    + rewrite app_length in Hl. cbn [length] in Hl. destruct (IH t' ltac:(lia)) as (ls & H). eexists. apply lines_lf; eassumption.
    + rewrite app_length in Hl. cbn [length] in Hl. destruct (starts LF t') eqn:E.
      * apply starts_true in E as (t'' & ->). cbn [length] in Hl. destruct (IH t'' ltac:(lia)) as (ls & H). eexists. apply lines_crlf; eassumption.
      * destruct (IH t' ltac:(lia)) as (ls & H). eexists. apply lines_cr; [exact Hb| |exact H].
        intros t'' ->. cbn [starts] in E. rewrite aeqb_refl in E. discriminate.
Qed.

Lemma file_lines_iff t ls : file_lines t ls <-> lines t = ls.
Proof.
  split; [apply file_lines_eq|]. intros <-. destruct (file_lines_ex (length t) t (le_n _)) as (ls & H). rewrite (file_lines_eq _ _ H). exact H.
Qed.

(** ** Words *)
Lemma split_word s : forall cur, word s -> split_from cur s = [cur ++ s].
Proof.
  induction s as [|c s IH]; intros cur H; [rewrite app_nil_r; reflexivity|]. cbn [split_from].
  rewrite aeqb_neq by (intros ->; apply H; left; reflexivity). rewrite IH by (intros X; apply H; right; exact X). rewrite <- app_assoc. reflexivity.
Qed.
Lemma split_space s t : forall cur, word s -> split_from cur (s ++ " "%char :: t) = (cur ++ s) :: split_from [] t.
Proof.
  induction s as [|c s IH]; intros cur H; cbn [app split_from]; [rewrite aeqb_refl, app_nil_r; reflexivity|].
  rewrite aeqb_neq by (intros ->; apply H; left; reflexivity). rewrite IH by (intros X; apply H; right; exact X). rewrite <- app_assoc. reflexivity.
Qed.
Lemma first_space t : word t \/ exists s t', t = s ++ " "%char :: t' /\ word s.
Proof.
  induction t as [|c t IH]; [left; exact (fun H => H)|].
  destruct (ascii_dec c " ") as [->|N1]; [right; exists [], t; split; [reflexivity|exact (fun H => H)]|].
  destruct IH as [H|(s & t' & -> & H)]; [left; intros [X|X]; [exact (N1 X)|exact (H X)]|].
  right. exists (c :: s), t'. split; [reflexivity|]. intros [X|X]; [exact (N1 X)|exact (H X)].
Qed.
Lemma split_spaces_inv t : (word t /\ split_spaces t = [t]) \/ exists s t', t = s ++ " "%char :: t' /\ word s /\ split_spaces t = s :: split_spaces t'.
Proof.
  unfold split_spaces. destruct (first_space t) as [H|(s & t' & -> & H)]; [left; split; [exact H|apply split_word, H]|].
  right. exists s, t'. repeat split; [exact H|]. apply (split_space s t' [] H).
Qed.

(** ** Numerals *)
Lemma is_blank_spec c : is_blank c = true <-> blank c.
Proof.
  unfold is_blank, blank. rewrite existsb_exists. split.
  - intros (x & Hx & E). apply Ascii.eqb_eq in E. subst. exact Hx.
  - intros H. exists c. split; [exact H|apply aeqb_refl].
Qed.

Lemma lstrip_ok t : exists a, t = a ++ lstrip t /\ Forall blank a /\ (forall c s, lstrip t = c :: s -> ~ blank c).
Proof.
  induction t as [|c t (a & E & Fa & Hn)]; [exists []; repeat split; [constructor|discriminate]|]. cbn [lstrip]. destruct (is_blank c) eqn:Ec.
  - exists (c :: a). split; [cbn [app]; f_equal; exact E|]. split; [|exact Hn]. constructor; [apply is_blank_spec, Ec|exact Fa].
  - exists []. repeat split; [constructor|]. intros c' s' X B. injection X as <- <-. apply is_blank_spec in B. congruence.
Qed.
Lemma lstrip_app a s : Forall blank a -> lstrip (a ++ s) = lstrip s.
Proof. induction 1 as [|c a Hc F IH]; [reflexivity|]. cbn [app lstrip]. apply is_blank_spec in Hc. rewrite Hc. exact IH. Qed.
Lemma lstrip_id c s : ~ blank c -> lstrip (c :: s) = c :: s.
Proof. intros H. cbn [lstrip]. destruct (is_blank c) eqn:E; [apply is_blank_spec in E; tauto|reflexivity]. Qed.

Lemma strip_ok t : exists a b, t = a ++ strip t ++ b /\ Forall blank a /\ Forall blank b.
Proof.
  destruct (lstrip_ok t) as (a & E & Fa & _). destruct (lstrip_ok (rev (lstrip t))) as (b & E' & Fb & _).
  exists a, (rev b). split; [|split; [exact Fa|apply Forall_rev, Fb]]. unfold strip.
  rewrite E at 1. f_equal. rewrite <- (rev_involutive (lstrip t)) at 1. rewrite E' at 1. apply rev_app_distr.
Qed.

Lemma strip_eq a s b c d s' s'' : Forall blank a -> Forall blank b -> s = c :: s' -> ~ blank c -> s = s'' ++ [d] -> ~ blank d -> strip (a ++ s ++ b) = s.
Proof.
  intros Fa Fb E1 Hc E2 Hd. unfold strip. rewrite lstrip_app by exact Fa. rewrite E1. cbn [app]. rewrite lstrip_id by exact Hc.
  change (c :: s' ++ b) with ((c :: s') ++ b). rewrite <- E1. rewrite rev_app_distr. rewrite lstrip_app by (apply Forall_rev, Fb).
  rewrite E2, rev_app_distr. cbn [rev app]. rewrite lstrip_id by exact Hd. cbn [rev]. rewrite rev_involutive. reflexivity.
Qed.

Lemma digit_value_spec c d : digit_value c = Some d <-> digit_is c d.
Proof.
  unfold digit_value, digit_is. split.
  - destruct ((48 <=? Z.of_N (N_of_ascii c)) && (Z.of_N (N_of_ascii c) <=? 57)) eqn:E; [|discriminate]. intros X. injection X as <-.
    apply andb_prop in E as (E1 & E2). apply Z.leb_le in E1, E2. split; [|lia].
    assert (Hc : c = ascii_of_N (N_of_ascii c)) by (symmetry; apply ascii_N_embedding).
    assert (H : exists k, (k < 10)%nat /\ N_of_ascii c = (48 + N.of_nat k)%N) by (exists (Z.to_nat (Z.of_N (N_of_ascii c) - 48)); split; lia).
    destruct H as (k & Hk & Ek). rewrite Ek in *. replace (Z.to_nat _) with k by lia. rewrite Hc.
    do 10 (destruct k as [|k]; [reflexivity|]). lia.
  - intros (E & H0). remember (Z.to_nat d) as k eqn:Ek. assert (d = Z.of_nat k) by lia. subst d. clear Ek H0.
    do 10 (destruct k as [|k]; [injection E as <-; reflexivity|]). destruct k; discriminate.
Qed.

Lemma digit_is_digit c d : digit_is c d -> digit c.
Proof. intros (E & _). apply nth_error_In in E. exact E. Qed.
Lemma digit_not_blank c : digit c -> ~ blank c.
Proof. unfold digit, blank, txt. cbn. intros H B. repeat destruct H as [H|H]; try contradiction; subst; repeat destruct B as [B|B]; discriminate || exact B. Qed.
Lemma digit_not c x : digit c -> In x ["_"; "+"; "-"; " "; LF; CR]%char -> c <> x.
Proof. unfold digit, txt. cbn. intros H B. repeat destruct H as [H|H]; try contradiction; subst; repeat destruct B as [B|B]; try contradiction; subst; discriminate. Qed.

Lemma read_digits_app : forall n s acc k t, (length s <= n)%nat -> read_digits acc s = Some k -> read_digits acc (s ++ t) = read_digits k t.
Proof.
  induction n as [|n IH]; intros s acc k t Hl E; (destruct s as [|c s]; [injection E as <-; reflexivity|]); cbn [length] in Hl; [lia|].
  cbn [app read_digits] in *. destruct (Ascii.eqb c "_").
  - destruct s as [|c' s]; [discriminate|]. cbn [app length] in *. destruct (digit_value c'); [|discriminate]. apply IH; [lia|exact E].
  - destruct (digit_value c); [|discriminate]. apply IH; [lia|exact E].
Qed.

Lemma read_nat_app s t k : read_nat s = Some k -> read_nat (s ++ t) = read_digits k t.
Proof. destruct s as [|c s]; [discriminate|]. cbn [read_nat app]. destruct (digit_value c); [|discriminate]. apply (read_digits_app (length s)). lia. Qed.

Lemma digits_read s k : digits s k -> read_nat s = Some k.
Proof.
  induction 1 as [c d Hd|s k c d H IH Hd|s k c d H IH Hd].
  - cbn. rewrite (proj2 (digit_value_spec c d) Hd). reflexivity.
  - rewrite (read_nat_app _ _ _ IH). cbn [read_digits]. rewrite aeqb_neq by (apply (digit_not c); [eapply digit_is_digit, Hd|cbn; tauto]).
    rewrite (proj2 (digit_value_spec c d) Hd). reflexivity.
  - rewrite (read_nat_app _ _ _ IH). cbn [read_digits]. rewrite aeqb_refl, (proj2 (digit_value_spec c d) Hd). reflexivity.
Qed.

Lemma read_digits_ok : forall n s p acc k, (length s <= n)%nat -> digits p acc -> read_digits acc s = Some k -> digits (p ++ s) k.
Proof.
  induction n as [|n IH]; intros s p acc k Hl Hp E; (destruct s as [|c s]; [injection E as <-; rewrite app_nil_r; exact Hp|]); cbn [length] in Hl; [lia|].
  cbn [read_digits] in E. destruct (Ascii.eqb_spec c "_") as [->|N].
  - destruct s as [|c s]; [discriminate|]. cbn [length] in Hl. destruct (digit_value c) as [d|] eqn:Ed; [|discriminate]. apply digit_value_spec in Ed.
    change ("_"%char :: c :: s) with (["_"%char; c] ++ s). rewrite app_assoc. eapply IH; [|eapply digits_under; eassumption|exact E]. lia.
  - destruct (digit_value c) as [d|] eqn:Ed; [|discriminate]. apply digit_value_spec in Ed.
    change (c :: s) with ([c] ++ s). rewrite app_assoc. eapply IH; [|eapply digits_more; eassumption|exact E]. lia.
Qed.

Lemma read_nat_iff s k : read_nat s = Some k <-> digits s k.
Proof.
  split; [|apply digits_read]. destruct s as [|c s]; [discriminate|]. cbn [read_nat]. destruct (digit_value c) as [d|] eqn:Ed; [|discriminate]. apply digit_value_spec in Ed.
  intros E. apply (read_digits_ok (length s) s [c] d k (le_n _)); [constructor; exact Ed|exact E].
Qed.

(** The first and the last character of a numeral. *)
Lemma digits_ends s k : digits s k -> (exists c s', s = c :: s' /\ digit c) /\ (exists d s', s = s' ++ [d] /\ digit d).
Proof.
  induction 1 as [c d Hd|s k c d H ((c0 & s0 & -> & H0) & _) Hd|s k c d H ((c0 & s0 & -> & H0) & _) Hd]; apply digit_is_digit in Hd.
  - split; [exists c, []|exists c, []]; auto.
  - split; [exists c0, (s0 ++ [c])|exists c, (c0 :: s0)]; auto.
  - split; [exists c0, (s0 ++ ["_"%char; c])|exists c, (c0 :: s0 ++ ["_"%char])]; split; auto. cbn [app]. rewrite <- app_assoc. reflexivity.
Qed.

Lemma signed_ends s z : signed s z -> (exists c s', s = c :: s' /\ ~ blank c) /\ (exists d s', s = s' ++ [d] /\ ~ blank d).
Proof.
  intros H. destruct H as [s n H|s n H|s n H]; destruct (digits_ends _ _ H) as ((c & s' & Ec & Hc) & (d & s'' & Ed & Hd));
    apply digit_not_blank in Hc, Hd; (split; [|eexists d, (_ :: s''); rewrite Ed; split; [reflexivity|exact Hd]] || split).
  - exists c, s'. auto.
  - exists d, s''. auto.
  - exists "+"%char, s. split; [reflexivity|]. unfold blank. cbn. intros B. repeat destruct B as [B|B]; discriminate || exact B.
  - exists "-"%char, s. split; [reflexivity|]. unfold blank. cbn. intros B. repeat destruct B as [B|B]; discriminate || exact B.
Qed.

Lemma read_signed_iff s z : read_signed s = Some z <-> signed s z.
Proof.
  unfold read_signed. split.
  - destruct (starts "+" s) eqn:E1; [apply starts_true in E1 as (s' & ->); cbn [tl]; rewrite read_nat_iff; apply signed_plus|].
    destruct (starts "-" s) eqn:E2.
    + apply starts_true in E2 as (s' & ->). cbn [tl]. destruct (read_nat s') eqn:E; [|discriminate]. intros X. injection X as <-. apply signed_minus, read_nat_iff, E.
    + rewrite read_nat_iff. apply signed_none.
  - intros H. destruct H as [s n H|s n H|s n H].
    + destruct (digits_ends _ _ H) as ((c & s' & Ec & Hc) & _). apply read_nat_iff in H. rewrite Ec in *. cbn [starts].
      rewrite !aeqb_neq by (apply (digit_not _ _ Hc); cbn; tauto). exact H.
    + cbn. apply read_nat_iff, H.
    + cbn. apply read_nat_iff in H. rewrite H. reflexivity.
Qed.

Theorem int_of_iff t z : int_of t = Ret z <-> numeral t z.
Proof.
  unfold int_of, numeral. split.
  - destruct (read_signed (strip t)) as [z'|] eqn:E; [|discriminate]. intros X. injection X as ->. apply read_signed_iff in E.
    destruct (strip_ok t) as (a & b & Et & Fa & Fb). exists a, (strip t), b. auto.
  - intros (a & s & b & -> & Fa & Fb & H). destruct (signed_ends _ _ H) as ((c & s' & Ec & Hc) & (d & s'' & Ed & Hd)).
    rewrite (strip_eq a s b c d s' s'' Fa Fb Ec Hc Ed Hd). rewrite (proj2 (read_signed_iff s z) H). reflexivity.
Qed.

Theorem int_of_error t : (forall z, ~ numeral t z) -> int_of t = Raise ValueError.
Proof.
  intros H. destruct (int_of t) as [z|e|] eqn:E; [apply int_of_iff in E; destruct (H z E)| |]; unfold int_of in E; destruct (read_signed (strip t)); congruence.
Qed.
