(** * The elimination over GF(2) returns a basis of the kernel *)
From Coq Require Import ZArith List Bool Lia.
From Verif Require Import Base Py Sqrt_Proofs2 Find_Model Find_Spec.
Import ListNotations.
Open Scope Z_scope.

(** ** Sums of bits *)
Definition xorl (l : list bool) : bool := fold_right xorb false l.

Lemma odd_zsum l : Z.odd (zsum l) = xorl (map Z.odd l).
Proof. induction l as [|x l IH]; [reflexivity|]. cbn [zsum fold_right map xorl]. fold (zsum l). rewrite Z.odd_add, IH. reflexivity. Qed.

Fixpoint XL (s : list bool) (xs : list Z) : Z :=
  match s, xs with
  | b :: s, x :: xs => Z.lxor (if b then x else 0) (XL s xs)
  | _, _ => 0
  end.

Lemma XL_bit s xs k : Z.testbit (XL s xs) k = xorl (map (fun '(b, x) => b && Z.testbit x k) (combine s xs)).
Proof.
  revert xs. induction s as [|b s IH]; intros [|x xs]; cbn [XL combine map xorl fold_right]; try apply Z.testbit_0_l.
  rewrite Z.lxor_spec, IH. fold (xorl (map (fun '(b, x) => b && Z.testbit x k) (combine s xs))). f_equal. destruct b; [reflexivity|apply Z.testbit_0_l].
Qed.

Fixpoint xors (a b : list bool) : list bool :=
  match a, b with x :: a, y :: b => xorb x y :: xors a b | _, _ => [] end.

Lemma lxor_swap a b c d : Z.lxor (Z.lxor a b) (Z.lxor c d) = Z.lxor (Z.lxor a c) (Z.lxor b d).
Proof. rewrite !Z.lxor_assoc. f_equal. rewrite <- !Z.lxor_assoc. f_equal. apply Z.lxor_comm. Qed.

Lemma XL_xors a b xs : length a = length xs -> length b = length xs -> XL (xors a b) xs = Z.lxor (XL a xs) (XL b xs).
Proof.
  revert b xs. induction a as [|x a IH]; intros [|y b] [|z xs]; cbn [length]; try discriminate; intros Ha Hb; [reflexivity|]. cbn [xors XL].
  rewrite IH by congruence. rewrite lxor_swap. f_equal. destruct x, y; cbn [xorb]; rewrite ?Z.lxor_nilpotent, ?Z.lxor_0_l, ?Z.lxor_0_r; reflexivity.
Qed.

Lemma xors_length a b : length a = length b -> length (xors a b) = length a.
Proof. revert b. induction a as [|x a IH]; intros [|y b]; cbn [length xors]; try discriminate; [reflexivity|]. intros H. f_equal. apply IH. congruence. Qed.

Lemma xors_zero a b : length a = length b -> (forall x, In x (xors a b) -> x = false) -> a = b.
Proof.
  revert b. induction a as [|x a IH]; intros [|y b]; cbn [length xors]; try discriminate; [reflexivity|]. intros L H. f_equal.
  - specialize (H (xorb x y) (or_introl eq_refl)). destruct x, y; try discriminate; reflexivity.
  - apply IH; [congruence|]. intros z Hz. apply H. right. exact Hz.
Qed.

(** ** The bits of a row, highest first *)
Fixpoint bitsl (n : nat) (h : Z) : list bool :=
  match n with O => [] | S n => Z.testbit h (Z.of_nat n) :: bitsl n h end.

Lemma bitsl_length n h : length (bitsl n h) = n.
Proof. induction n as [|n IH]; cbn [bitsl length]; congruence. Qed.

Lemma bitsl_nth n h i : (i < n)%nat -> nth i (bitsl n h) false = Z.testbit h (Z.of_nat n - 1 - Z.of_nat i).
Proof.
  revert i. induction n as [|n IH]; intros i Hi; [lia|]. cbn [bitsl]. destruct i as [|i]; cbn [nth]; [f_equal; lia|]. rewrite IH by lia. f_equal. lia.
Qed.

Lemma bitsl_lxor n a b : bitsl n (Z.lxor a b) = xors (bitsl n a) (bitsl n b).
Proof. induction n as [|n IH]; [reflexivity|]. cbn [bitsl xors]. rewrite Z.lxor_spec, IH. reflexivity. Qed.

Lemma bitsl_shift n h : bitsl (S n) h = bitsl n (Z.shiftr h 1) ++ [Z.testbit h 0].
Proof.
  induction n as [|n IH]; [reflexivity|]. change (bitsl (S (S n)) h) with (Z.testbit h (Z.of_nat (S n)) :: bitsl (S n) h). rewrite IH. cbn [bitsl app]. f_equal. rewrite Z.shiftr_spec by lia. f_equal. lia.
Qed.

Lemma decode_ok n v acc : decode n v acc = map Z.b2z (bitsl n v) ++ acc.
Proof.
  revert v acc. induction n as [|n IH]; intros v acc; [reflexivity|]. cbn [decode]. rewrite IH. rewrite bitsl_shift, map_app, <- app_assoc. f_equal. cbn [map app]. f_equal.
  rewrite Z.bit0_odd, Zmod_odd. destruct (Z.odd v); reflexivity.
Qed.

(** A number with given bits. *)
Fixpoint bl (l : list bool) : Z := match l with [] => 0 | b :: l => Z.lxor (if b then 2 ^ Z.of_nat (length l) else 0) (bl l) end.

Lemma bl_high l k : Z.of_nat (length l) <= k -> Z.testbit (bl l) k = false.
Proof.
  induction l as [|b l IH]; intros Hk; [apply Z.testbit_0_l|]. cbn [length] in Hk. cbn [bl]. rewrite Z.lxor_spec, IH by lia.
  destruct b; [|rewrite Z.testbit_0_l; reflexivity]. rewrite Z.pow2_bits_false by lia. reflexivity.
Qed.

Lemma bitsl_ext n a b : (forall k, 0 <= k < Z.of_nat n -> Z.testbit a k = Z.testbit b k) -> bitsl n a = bitsl n b.
Proof. induction n as [|n IH]; intros H; [reflexivity|]. cbn [bitsl]. f_equal; [apply H; lia|apply IH; intros k Hk; apply H; lia]. Qed.

Lemma bitsl_bl l : bitsl (length l) (bl l) = l.
Proof.
  induction l as [|b l IH]; [reflexivity|]. cbn [length bitsl]. f_equal.
  - cbn [bl]. rewrite Z.lxor_spec, bl_high by lia. destruct b; [rewrite Z.pow2_bits_true by lia; reflexivity|rewrite Z.testbit_0_l; reflexivity].
  - rewrite <- IH at 3. apply bitsl_ext. intros k Hk. cbn [bl]. rewrite Z.lxor_spec. destruct b; [rewrite Z.pow2_bits_false by lia|rewrite Z.testbit_0_l]; destruct (Z.testbit (bl l) k); reflexivity.
Qed.

Lemma bits_zero a : (forall k, 0 <= k -> Z.testbit a k = false) -> a = 0.
Proof. intros H. apply Z.bits_inj'. intros k Hk. rewrite Z.testbit_0_l. apply H, Hk. Qed.

(** ** Lowest ones *)
Definition low (r k : Z) : Prop := 0 <= k /\ Z.testbit r k = true /\ forall j, j < k -> Z.testbit r j = false.

Lemma low_test c r : 0 <= c -> (negb (Z.land r (Z.shiftl 1 c) =? 0) && (r mod Z.shiftl 1 c =? 0) = true <-> low r c).
Proof.
  intros Hc. rewrite Z.shiftl_1_l. rewrite andb_true_iff, negb_true_iff, Z.eqb_neq, Z.eqb_eq. split.
  - intros [H1 H2]. split; [exact Hc|]. split.
    + destruct (Z.testbit r c) eqn:T; [reflexivity|]. exfalso. apply H1. apply bits_zero. intros k Hk. rewrite Z.land_spec, Z.pow2_bits_eqb by lia. destruct (Z.eqb_spec c k) as [<-|]; [rewrite T; reflexivity|apply andb_false_r].
    + intros j Hj. destruct (Z_lt_le_dec j 0); [apply Z.testbit_neg_r; lia|]. rewrite <- (Z.mod_pow2_bits_low r c j) by lia. rewrite H2. apply Z.testbit_0_l.
  - intros (_ & H1 & H2). split.
    + intros H. assert (T : Z.testbit (Z.land r (2 ^ c)) c = true) by (rewrite Z.land_spec, H1, Z.pow2_bits_true by lia; reflexivity). rewrite H, Z.testbit_0_l in T. discriminate.
    + apply bits_zero. intros k Hk. destruct (Z_lt_le_dec k c); [rewrite Z.mod_pow2_bits_low by lia; apply H2; lia|apply Z.mod_pow2_bits_high; lia].
Qed.

Lemma land_test c r : 0 <= c -> negb (Z.land r (Z.shiftl 1 c) =? 0) = Z.testbit r c.
Proof.
  intros Hc. rewrite Z.shiftl_1_l. destruct (Z.testbit r c) eqn:T.
  - apply negb_true_iff, Z.eqb_neq. intros H. assert (T' : Z.testbit (Z.land r (2 ^ c)) c = true) by (rewrite Z.land_spec, T, Z.pow2_bits_true by lia; reflexivity). rewrite H, Z.testbit_0_l in T'. discriminate.
  - apply negb_false_iff, Z.eqb_eq. apply bits_zero. intros k Hk. rewrite Z.land_spec, Z.pow2_bits_eqb by lia. destruct (Z.eqb_spec c k) as [<-|]; [rewrite T; reflexivity|apply andb_false_r].
Qed.

Lemma low_unique r a b : low r a -> low r b -> a = b.
Proof. intros (_ & A1 & A2) (_ & B1 & B2). destruct (Z.lt_total a b) as [L|[L|L]]; [|exact L|]; exfalso; [specialize (B2 a L)|specialize (A2 b L)]; congruence. Qed.

Lemma low_exists r k : 0 <= k -> Z.testbit r k = true -> exists c, low r c /\ c <= k.
Proof.
  intros Hk. revert r. pattern k. apply Zlt_0_ind; [|exact Hk]. intros x IH Hx r T.
  destruct (existsb (Z.testbit r) (zrange 0 x)) eqn:E.
  - apply existsb_exists in E as (y & Hy%zrange_In & T'). destruct (IH y ltac:(lia) r T') as (c & Hc & L). exists c. split; [exact Hc|lia].
  - exists x. split; [|lia]. split; [exact Hx|]. split; [exact T|]. intros j Hj. destruct (Z_lt_le_dec j 0); [apply Z.testbit_neg_r; lia|].
    destruct (Z.testbit r j) eqn:Tj; [|reflexivity]. exfalso. assert (existsb (Z.testbit r) (zrange 0 x) = true); [|congruence]. apply existsb_exists. exists j. split; [apply zrange_In; lia|exact Tj].
Qed.

Lemma low_xor r e c c' : low e c -> c' < c -> (low (Z.lxor r e) c' <-> low r c').
Proof.
  intros (_ & _ & H) L. unfold low. assert (X : forall j, j < c -> Z.testbit (Z.lxor r e) j = Z.testbit r j) by (intros j Hj; rewrite Z.lxor_spec, H by lia; apply xorb_false_r).
  rewrite X by lia. split; intros (A & B & D); (split; [exact A|]; split; [exact B|]; intros j Hj; specialize (D j Hj)); [rewrite X in D by lia; exact D|rewrite X by lia; exact D].
Qed.

(** ** One elimination step *)
Lemma eliminate_length bit rows : length (eliminate bit rows) = length rows.
Proof. induction rows as [|[r h] rows IH]; [reflexivity|]. cbn [eliminate]. destruct (_ && _); cbn [length]; [rewrite map_length; reflexivity|rewrite IH; reflexivity]. Qed.

Lemma eliminate_closed (P : Z * Z -> Prop) bit rows : (forall r h r' h', P (r, h) -> P (r', h') -> P (Z.lxor r r', Z.lxor h h')) -> Forall P rows -> Forall P (eliminate bit rows).
Proof.
  intros HP. induction rows as [|[r h] rows IH]; intros F; [constructor|]. inversion F as [|? ? F1 F2]; subst. cbn [eliminate]. destruct (_ && _); constructor; auto.
  apply Forall_forall. intros x Hx. apply in_map_iff in Hx as ([r' h'] & <- & Hx). rewrite Forall_forall in F2. specialize (F2 _ Hx). destruct (negb _); auto.
Qed.

(** Row [i] has its lowest history bit at [rows - 1 - i]. *)
Fixpoint tri (hs : list Z) : Prop :=
  match hs with [] => True | h :: hs => low h (Z.of_nat (length hs)) /\ tri hs end.

Lemma tri_map e (f : Z * Z -> bool) his rows : (forall j, j < Z.of_nat (length rows) -> Z.testbit his j = false) -> tri (map snd rows) ->
  tri (map snd (map (fun '(r, h) => if f (r, h) then (Z.lxor r e, Z.lxor h his) else (r, h)) rows)).
Proof.
  induction rows as [|[r h] rows IH]; intros H T; [exact I|]. cbn [map tri snd length] in *. destruct T as [T1 T2]. rewrite !map_length in *. split.
  - destruct (f (r, h)); cbn [snd]; [|exact T1]. destruct T1 as (A & B & C). split; [exact A|]. split.
    + rewrite Z.lxor_spec, B, H by lia. reflexivity.
    + intros j Hj. rewrite Z.lxor_spec, C, H by lia. reflexivity.
  - apply IH; [|exact T2]. intros j Hj. apply H. lia.
Qed.

Lemma tri_eliminate bit rows : tri (map snd rows) -> tri (map snd (eliminate bit rows)).
Proof.
  induction rows as [|[r h] rows IH]; intros T; [exact I|]. cbn [eliminate]. cbn [map tri snd] in T. destruct T as [T1 T2]. rewrite map_length in T1. destruct (_ && _); cbn [map tri snd].
  - rewrite !map_length. split; [exact T1|]. apply (tri_map r (fun x => negb (Z.land (fst x) bit =? 0)) h rows); [|exact T2]. intros j Hj. apply T1, Hj.
  - rewrite map_length, eliminate_length. split; [exact T1|]. apply IH, T2.
Qed.

(** At most one row has its lowest one at [c]. *)
Definition uniq (c : Z) (rs : list Z) : Prop := forall i j, (i < j < length rs)%nat -> ~ (low (nth i rs 0) c /\ low (nth j rs 0) c).

Lemma eliminate_low_old c c' rows : 0 <= c -> c' < c -> Forall2 (fun x y => low (fst x) c' <-> low (fst y) c') rows (eliminate (Z.shiftl 1 c) rows).
Proof.
  intros Hc Hc'. induction rows as [|[r h] rows IH]; [constructor|]. cbn [eliminate]. destruct (negb _ && _) eqn:E; constructor; try reflexivity; try exact IH.
  apply low_test in E; [|exact Hc]. clear IH. induction rows as [|[r' h'] rows IH]; constructor; [|exact IH]. destruct (negb _); cbn [fst]; [|reflexivity]. symmetry. apply (low_xor _ _ c); assumption.
Qed.

Lemma Forall2_nth_low c rows rows' : Forall2 (fun x y : Z * Z => low (fst x) c <-> low (fst y) c) rows rows' -> forall i, (i < length rows)%nat -> (low (nth i (map fst rows) 0) c <-> low (nth i (map fst rows') 0) c).
Proof. intros F. induction F as [|x y l l' H F IH]; intros i Hi; cbn [length] in Hi; [lia|]. destruct i as [|i]; cbn [map nth]; [exact H|apply IH; lia]. Qed.

Lemma uniq_old c c' rows : 0 <= c -> c' < c -> uniq c' (map fst rows) -> uniq c' (map fst (eliminate (Z.shiftl 1 c) rows)).
Proof.
  intros Hc Hc' U i j Hij. pose proof (eliminate_low_old c c' rows Hc Hc') as F. rewrite map_length, eliminate_length in Hij.
  rewrite <- (Forall2_nth_low c' _ _ F i), <- (Forall2_nth_low c' _ _ F j) by lia. apply U. rewrite map_length. lia.
Qed.

Lemma uniq_new c rows : 0 <= c -> uniq c (map fst (eliminate (Z.shiftl 1 c) rows)).
Proof.
  intros Hc. induction rows as [|[r h] rows IH]; [intros i j; cbn; lia|]. cbn [eliminate]. destruct (negb _ && _) eqn:E.
  - apply low_test in E; [|exact Hc]. assert (N : forall x, In x (map fst (map (fun '(r', h') => if negb (Z.land r' (Z.shiftl 1 c) =? 0) then (Z.lxor r' r, Z.lxor h' h) else (r', h')) rows)) -> ~ low x c).
    { intros x Hx (_ & L & _). rewrite map_map in Hx. apply in_map_iff in Hx as ([r' h'] & <- & _). rewrite land_test in L by exact Hc. destruct (Z.testbit r' c) eqn:T; cbn [fst] in L; [|congruence]. rewrite Z.lxor_spec, T in L. destruct E as (_ & E & _). rewrite E in L. discriminate. }
    intros i j Hij [_ L]. cbn [map] in L, Hij. destruct j as [|j]; [lia|]. cbn [nth] in L. cbn [length] in Hij. refine (N _ _ L). apply nth_In. lia.
  - intros i j Hij [L1 L2]. cbn [map fst length] in *. destruct i as [|i]; destruct j as [|j]; try lia; cbn [nth] in *; [apply low_test in L1; [congruence|exact Hc]|]. apply (IH i j); [lia|split; assumption].
Qed.

(** ** The whole elimination *)
Definition elim_all (k : nat) (rows : list (Z * Z)) : list (Z * Z) := fold_left (fun rows i => eliminate (Z.shiftl 1 i) rows) (zrange 0 (Z.of_nat k)) rows.

Lemma elim_all_S k rows : elim_all (S k) rows = eliminate (Z.shiftl 1 (Z.of_nat k)) (elim_all k rows).
Proof. unfold elim_all. rewrite Nat2Z.inj_succ. unfold Z.succ. rewrite zrange_snoc by lia. rewrite fold_left_app. reflexivity. Qed.

Lemma elim_all_length k rows : length (elim_all k rows) = length rows.
Proof. induction k as [|k IH]; [reflexivity|]. rewrite elim_all_S, eliminate_length. exact IH. Qed.

Lemma elim_all_closed (P : Z * Z -> Prop) k rows : (forall r h r' h', P (r, h) -> P (r', h') -> P (Z.lxor r r', Z.lxor h h')) -> Forall P rows -> Forall P (elim_all k rows).
Proof. intros HP F. induction k as [|k IH]; [exact F|]. rewrite elim_all_S. apply eliminate_closed; assumption. Qed.

Lemma elim_all_tri k rows : tri (map snd rows) -> tri (map snd (elim_all k rows)).
Proof. intros T. induction k as [|k IH]; [exact T|]. rewrite elim_all_S. apply tri_eliminate, IH. Qed.

Lemma elim_all_uniq k rows c : 0 <= c < Z.of_nat k -> uniq c (map fst (elim_all k rows)).
Proof.
  induction k as [|k IH]; intros Hc; [lia|]. rewrite elim_all_S. destruct (Z.eq_dec c (Z.of_nat k)) as [->|]; [apply uniq_new; lia|]. apply uniq_old; [lia|lia|]. apply IH. lia.
Qed.

(** ** Independence and spanning *)
Lemma xorl_single l i : (i < length l)%nat -> nth i l false = true -> (forall j, (j < length l)%nat -> j <> i -> nth j l false = false) -> xorl l = true.
Proof.
  revert i. induction l as [|b l IH]; intros i Hi Ti H; cbn [length] in *; [lia|]. cbn [xorl fold_right]. fold (xorl l). destruct i as [|i].
  - cbn [nth] in Ti. subst b. assert (Z0 : xorl l = false); [|rewrite Z0; reflexivity]. clear IH. assert (H' : forall j, (j < length l)%nat -> nth j l false = false) by (intros j Hj; apply (H (S j)); lia). clear H Hi. induction l as [|b l IH]; [reflexivity|]. cbn [xorl fold_right]. fold (xorl l). rewrite IH; [|intros j Hj; apply (H' (S j)); cbn [length]; lia]. pose proof (H' 0%nat ltac:(cbn [length]; lia)) as Q. cbn [nth] in Q. rewrite Q. reflexivity.
  - rewrite (IH i); [|lia|exact Ti|intros j Hj N; apply (H (S j)); lia]. pose proof (H 0%nat ltac:(lia) ltac:(lia)) as Q. cbn [nth] in Q. rewrite Q. reflexivity.
Qed.

Lemma combine_nth' {A B} (s : list A) (xs : list B) i a b : length s = length xs -> nth i (combine s xs) (a, b) = (nth i s a, nth i xs b).
Proof. intros H. apply combine_nth, H. Qed.

Lemma nth_map_lt {A B} (f : A -> B) l i d d' : (i < length l)%nat -> nth i (map f l) d' = f (nth i l d).
Proof. intros H. rewrite (nth_indep _ d' (f d)) by (rewrite map_length; exact H). apply map_nth. Qed.

Lemma rows_independent C s rs : length s = length rs -> (forall c, 0 <= c < C -> uniq c rs) -> (forall r, In r rs -> forall k, C <= k -> Z.testbit r k = false) -> XL s rs = 0 ->
  forall i, (i < length rs)%nat -> nth i s false = true -> nth i rs 0 = 0.
Proof.
  intros Hs U Hi X. assert (N : forall c, 0 <= c -> forall i, (i < length rs)%nat -> nth i s false = true -> ~ low (nth i rs 0) c).
  { intros c0 Hc0. pattern c0. apply Zlt_0_ind; [|exact Hc0]. intros c IH Hc i Hin Ti L.
    assert (HcC : c < C). { destruct (Z_lt_le_dec c C) as [|G]; [assumption|]. destruct L as (_ & L & _). rewrite Hi in L; [discriminate|apply nth_In; exact Hin|exact G]. }
    assert (T : Z.testbit (XL s rs) c = true); [|rewrite X, Z.testbit_0_l in T; discriminate].
    rewrite XL_bit. assert (Hlen : length (combine s rs) = length rs) by (rewrite combine_length; lia).
    assert (Hnth : forall j, (j < length rs)%nat -> nth j (map (fun '(b, x) => b && Z.testbit x c) (combine s rs)) false = nth j s false && Z.testbit (nth j rs 0) c).
    { intros j Hj. rewrite (nth_map_lt _ _ j (false, 0)) by lia. rewrite combine_nth' by exact Hs. reflexivity. }
    apply (xorl_single _ i); rewrite ?map_length, ?Hlen; [exact Hin|rewrite Hnth, Ti by exact Hin; apply L|]. intros j Hj Nj. rewrite Hnth by exact Hj. destruct (nth j s false) eqn:Tj; [cbn [andb]|reflexivity].
    destruct (Z.testbit (nth j rs 0) c) eqn:Tc; [|reflexivity]. exfalso. destruct (low_exists _ c Hc Tc) as (c' & Lc' & Hle). destruct (Z.eq_dec c' c) as [->|].
    - destruct (Nat.lt_total i j) as [Q|[Q|Q]]; [|congruence|]; [apply (U c ltac:(lia) i j)|apply (U c ltac:(lia) j i)]; try lia; split; assumption.
    - apply (IH c' ltac:(destruct Lc'; lia) j Hj Tj Lc'). }
  intros i Hin Ti. apply bits_zero. intros k Hk. destruct (Z.testbit (nth i rs 0) k) eqn:T; [|reflexivity]. exfalso. destruct (low_exists _ k Hk T) as (c & L & _). apply (N c ltac:(apply L) i Hin Ti L).
Qed.

Lemma tri_span hs : tri hs -> forall w, exists s, length s = length hs /\ forall k, k < Z.of_nat (length hs) -> Z.testbit (Z.lxor w (XL s hs)) k = false.
Proof.
  induction hs as [|h hs IH]; intros T w.
  - exists []. split; [reflexivity|]. intros k Hk. cbn in Hk. apply Z.testbit_neg_r. lia.
  - destruct T as [(_ & T1 & T2) T]. destruct (IH T w) as (s & Hs & H). set (b := Z.testbit (Z.lxor w (XL s hs)) (Z.of_nat (length hs))).
    exists (b :: s). split; [cbn [length]; congruence|]. intros k Hk. cbn [length] in Hk. cbn [XL]. rewrite (Z.lxor_comm (if b then h else 0)), <- Z.lxor_assoc, Z.lxor_spec. destruct (Z.eq_dec k (Z.of_nat (length hs))) as [->|].
    + fold b. destruct b; [rewrite T1; reflexivity|rewrite Z.testbit_0_l; reflexivity].
    + rewrite H by lia. destruct b; [rewrite T2 by lia; reflexivity|rewrite Z.testbit_0_l; reflexivity].
Qed.

Lemma tri_independent hs : tri hs -> forall s, length s = length hs -> (forall k, k < Z.of_nat (length hs) -> Z.testbit (XL s hs) k = false) -> forall b, In b s -> b = false.
Proof.
  induction hs as [|h hs IH]; intros T [|b s] Hs H b' Hb; try discriminate; [contradiction|]. destruct T as [(_ & T1 & T2) T]. cbn [length] in *.
  assert (A : forall b', In b' s -> b' = false).
  { apply (IH T); [congruence|]. intros k Hk. specialize (H k ltac:(lia)). cbn [XL] in H. rewrite Z.lxor_spec in H. destruct b; [rewrite T2 in H by lia|rewrite Z.testbit_0_l in H]; destruct (Z.testbit (XL s hs) k); auto. }
  destruct Hb as [<-|Hb]; [|apply A, Hb]. specialize (H (Z.of_nat (length hs)) ltac:(lia)). cbn [XL] in H. rewrite Z.lxor_spec in H. assert (X0 : XL s hs = 0).
  { clear - A. revert hs. induction s as [|b s IH]; intros [|h hs]; try reflexivity. cbn [XL]. rewrite (A b) by (left; reflexivity). rewrite IH by (intros b' Hb; apply A; right; exact Hb). reflexivity. }
  rewrite X0, Z.testbit_0_l, xorb_false_r in H. destruct b; [congruence|reflexivity].
Qed.
