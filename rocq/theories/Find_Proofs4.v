(** * The elimination over GF(2) returns a basis of the kernel (conclusion) *)
From Coq Require Import ZArith List Bool Lia.
From Verif Require Import Base Py Sums Find_Model Find_Spec Find_Proofs3.
Import ListNotations.
Open Scope Z_scope.

(** ** Encoding *)
Lemma bl_cons b l : bl (b :: l) = Z.b2z b * 2 ^ Z.of_nat (length l) + bl l.
Proof.
  cbn [bl]. rewrite <- Z.add_nocarry_lxor; [destruct b; cbn [Z.b2z]; lia|]. apply bits_zero. intros k Hk. rewrite Z.land_spec. destruct (Z_lt_le_dec k (Z.of_nat (length l))).
  - destruct b; [rewrite Z.pow2_bits_false by lia|rewrite Z.testbit_0_l]; reflexivity.
  - rewrite bl_high by lia. apply andb_false_r.
Qed.

Lemma bl_snoc l b : bl (l ++ [b]) = 2 * bl l + Z.b2z b.
Proof.
  induction l as [|x l IH]; [destruct b; reflexivity|]. cbn [app]. rewrite !bl_cons, IH, app_length, Nat2Z.inj_add. cbn [length]. change (Z.of_nat 1) with 1. rewrite Z.pow_add_r, Z.pow_1_r by lia. ring.
Qed.

Definition val (row : list Z) : Z := bl (map Z.odd row).

Lemma val_bit row j : (j < length row)%nat -> Z.testbit (val row) (Z.of_nat (length row) - 1 - Z.of_nat j) = Z.odd (nth j row 0).
Proof.
  intros H. unfold val. rewrite <- (map_length Z.odd) in *. rewrite <- bitsl_nth by exact H. rewrite bitsl_bl. apply (nth_map_lt Z.odd). rewrite map_length in H. exact H.
Qed.

Lemma encode_ok v : encode (Z.of_nat (length v)) v = Ret (val v).
Proof.
  unfold encode. set (C := Z.of_nat (length v)).
  destruct (foldM_range (fun value i => do x <- pyget v i; Ret (if x mod 2 =? 0 then value else value + Z.shiftl 1 (C - i - 1)))
    (fun i value => value = 2 ^ (C - i) * val (firstn (Z.to_nat i) v)) 0 C 0) as (x & E & H).
  - unfold C. lia.
  - rewrite Z.sub_0_r. cbn. lia.
  - intros i value Hi ->. unfold C in *. assert (Hn : (Z.to_nat i < length v)%nat) by lia. destruct (nth_error v (Z.to_nat i)) as [x|] eqn:N; [|apply nth_error_None in N; lia].
    assert (G : pyget v i = Ret x). { pose proof (rd_get v i) as G. rewrite G by (unfold zlen; lia). f_equal. unfold rd. destruct (Z.ltb_spec i 0); [lia|]. apply nth_error_nth. exact N. }
    rewrite G. cbn [bind]. eexists. split; [reflexivity|]. unfold val. replace (Z.to_nat (i + 1)) with (S (Z.to_nat i)) by lia.
    assert (F : firstn (S (Z.to_nat i)) v = firstn (Z.to_nat i) v ++ [x]). { clear - N. revert v N. induction (Z.to_nat i) as [|k IH]; intros [|y v] N; cbn in N; try discriminate; [injection N as ->; reflexivity|]. change (firstn (S (S k)) (y :: v)) with (y :: firstn (S k) v). rewrite IH by exact N. reflexivity. }
    rewrite F, map_app. cbn [map]. rewrite bl_snoc. rewrite Z.shiftl_1_l. replace (Z.of_nat (length v) - i) with (Z.of_nat (length v) - (i + 1) + 1) by lia. rewrite Z.pow_add_r, Z.pow_1_r by lia. replace (Z.of_nat (length v) - i - 1) with (Z.of_nat (length v) - (i + 1)) by lia.
    rewrite Zmod_odd. destruct (Z.odd x); cbn [Z.eqb Z.b2z]; rewrite ?Z.add_simpl_r; ring.
  - rewrite E, H. f_equal. rewrite Z.sub_diag, Z.pow_0_r. unfold C. rewrite Nat2Z.id, firstn_all. lia.
Qed.

Fixpoint idl (n : nat) : list Z := match n with O => [] | S n => 2 ^ Z.of_nat n :: idl n end.

Lemma idl_length n : length (idl n) = n.
Proof. induction n as [|n IH]; cbn [idl length]; congruence. Qed.

Lemma identity_ok n : identity (Z.of_nat n) = idl n.
Proof.
  unfold identity. assert (H : forall k m : nat, map (fun i => Z.shiftr (Z.shiftl 1 (Z.of_nat (k + m) - 1)) i) (zrange (Z.of_nat k) (Z.of_nat (k + m))) = idl m).
  { intros k m. revert k. induction m as [|m IH]; intros k; [rewrite zrange_nil by lia; reflexivity|]. rewrite zrange_cons by lia. cbn [map idl]. f_equal.
    - rewrite Z.shiftl_1_l, Z.shiftr_div_pow2 by lia. replace (Z.of_nat (k + S m) - 1) with (Z.of_nat m + Z.of_nat k) by lia. rewrite Z.pow_add_r by lia. apply Z.div_mul. apply Z.pow_nonzero; lia.
    - specialize (IH (S k)). replace (S k + m)%nat with (k + S m)%nat in IH by lia. replace (Z.of_nat k + 1) with (Z.of_nat (S k)) by lia. exact IH. }
  exact (H O n).
Qed.

(** ** Rows and their histories *)
Definition E (r0 : list Z) (h : Z) : Z := XL (bitsl (length r0) h) r0.

Lemma E_lxor r0 a b : E r0 (Z.lxor a b) = Z.lxor (E r0 a) (E r0 b).
Proof. unfold E. rewrite bitsl_lxor. apply XL_xors; apply bitsl_length. Qed.

Lemma XL_none n h xs : (forall k, 0 <= k < Z.of_nat n -> Z.testbit h k = false) -> XL (bitsl n h) xs = 0.
Proof.
  revert xs. induction n as [|n IH]; intros [|x xs] H; try reflexivity. cbn [bitsl XL]. rewrite H by lia. rewrite IH by (intros k Hk; apply H; lia). reflexivity.
Qed.

Lemma E_unit pre x rest : E (pre ++ x :: rest) (2 ^ Z.of_nat (length rest)) = x.
Proof.
  unfold E. induction pre as [|y pre IH]; cbn [app length bitsl XL].
  - rewrite Z.pow2_bits_true by lia. rewrite XL_none; [apply Z.lxor_0_r|]. intros k Hk. apply Z.pow2_bits_false. lia.
  - rewrite IH. rewrite Z.pow2_bits_false; [apply Z.lxor_0_l|]. rewrite app_length. cbn [length]. lia.
Qed.

Lemma init_E r0 : forall suf pre, r0 = pre ++ suf -> Forall (fun '(r, h) => r = E r0 h) (combine suf (idl (length suf))).
Proof.
  induction suf as [|x suf IH]; intros pre Er; [constructor|]. cbn [length idl combine]. constructor; [rewrite Er; symmetry; apply E_unit|]. apply (IH (pre ++ [x])). rewrite <- app_assoc. exact Er.
Qed.

Lemma init_high R : Forall (fun h => forall k, Z.of_nat R <= k -> Z.testbit h k = false) (idl R).
Proof.
  assert (H : forall n, (n <= R)%nat -> Forall (fun h => forall k, Z.of_nat R <= k -> Z.testbit h k = false) (idl n)); [|apply H; lia].
  induction n as [|n IH]; intros Hn; [constructor|]. cbn [idl]. constructor; [|apply IH; lia]. intros k Hk. apply Z.pow2_bits_false. lia.
Qed.

Lemma init_tri n : tri (idl n).
Proof.
  induction n as [|n IH]; [exact I|]. cbn [idl tri]. rewrite idl_length. split; [|exact IH]. split; [lia|]. split; [apply Z.pow2_bits_true; lia|]. intros j Hj. apply Z.pow2_bits_false. lia.
Qed.

(** ** Selecting a sublist *)
Section Sel.
  Context {A : Type} (p : A -> bool).
  Fixpoint expand (rows : list A) (s : list bool) : list bool :=
    match rows with
    | [] => []
    | x :: rows => if p x then match s with b :: s => b :: expand rows s | [] => [] end else false :: expand rows s
    end.
  Fixpoint restrict (rows : list A) (s : list bool) : list bool :=
    match rows, s with
    | x :: rows, b :: s => if p x then b :: restrict rows s else restrict rows s
    | _, _ => []
    end.

  Lemma expand_ok f rows s : length s = length (filter p rows) -> length (expand rows s) = length rows /\ XL (expand rows s) (map f rows) = XL s (map f (filter p rows)) /\ restrict rows (expand rows s) = s.
  Proof.
    revert s. induction rows as [|x rows IH]; intros s; cbn [filter].
    - destruct s; [|discriminate]. repeat split; reflexivity.
    - destruct (p x) eqn:Px.
      + destruct s as [|b s]; cbn [length]; [discriminate|]. intros [= H]. destruct (IH s H) as (H1 & H2 & H3). cbn [expand]. rewrite Px. cbn [length map XL restrict]. rewrite Px, H1, H2, H3. repeat split; reflexivity.
      + intros H. destruct (IH s H) as (H1 & H2 & H3). cbn [expand]. rewrite Px. cbn [length map XL restrict]. rewrite Px, H1, H2, H3. repeat split; reflexivity.
  Qed.

  Lemma restrict_ok f rows s : length s = length rows -> (forall i d, (i < length rows)%nat -> nth i s false = true -> p (nth i rows d) = true) ->
    length (restrict rows s) = length (filter p rows) /\ XL (restrict rows s) (map f (filter p rows)) = XL s (map f rows).
  Proof.
    revert s. induction rows as [|x rows IH]; intros [|b s] Hs H; try discriminate; [split; reflexivity|]. cbn [restrict filter length] in *.
    destruct (IH s ltac:(congruence)) as (H1 & H2); [intros i d Hi Ti; apply (H (S i)); [lia|exact Ti]|].
    destruct (p x) eqn:Px; cbn [length map XL]; rewrite H1, H2; [split; reflexivity|]. split; [reflexivity|]. destruct b; [|symmetry; apply Z.lxor_0_l]. specialize (H 0%nat x ltac:(lia) eq_refl). cbn [nth] in H. congruence.
  Qed.
End Sel.

Lemma XL_linear r0 F : Forall (fun '(r, h) => r = E r0 h) F -> forall s, XL s (map fst F) = E r0 (XL s (map snd F)).
Proof.
  intros H. assert (E0 : E r0 0 = 0) by (unfold E; apply XL_none; intros; apply Z.testbit_0_l). induction H as [|[r h] F Hr H IH]; intros [|b s]; cbn [map XL fst snd]; try (symmetry; exact E0).
  rewrite E_lxor, <- IH. f_equal. destruct b; [exact Hr|symmetry; exact E0].
Qed.

(** ** Parities *)
Lemma dot_bit C s rows j : (j < C)%nat -> (forall row, In row rows -> length row = C) ->
  Z.odd (dot s rows j) = Z.testbit (XL (map Z.odd s) (map val rows)) (Z.of_nat C - 1 - Z.of_nat j).
Proof.
  intros Hj. revert s. induction rows as [|row rows IH]; intros [|x s] HC; unfold dot; cbn [combine map zsum fold_right XL]; try (rewrite Z.testbit_0_l; reflexivity).
  rewrite Z.odd_add, Z.odd_mul, Z.lxor_spec. fold (dot s rows j). rewrite <- IH by (intros r Hr; apply HC; right; exact Hr).
  change (fold_right Z.add 0 (map (fun '(x, row) => x * nth j row 0) (combine s rows))) with (dot s rows j). f_equal.
  pose proof (HC row (or_introl eq_refl)) as L. rewrite <- val_bit by lia. rewrite L. destruct (Z.odd x); [reflexivity|symmetry; apply Z.testbit_0_l].
Qed.

Lemma XL_high s xs k : (forall x, In x xs -> Z.testbit x k = false) -> Z.testbit (XL s xs) k = false.
Proof.
  revert xs. induction s as [|b s IH]; intros [|x xs] H; cbn [XL]; try apply Z.testbit_0_l. rewrite Z.lxor_spec, IH by (intros y Hy; apply H; right; exact Hy). destruct b; [rewrite H by (left; reflexivity); reflexivity|rewrite Z.testbit_0_l; reflexivity].
Qed.

Lemma val_high row k : Z.of_nat (length row) <= k -> Z.testbit (val row) k = false.
Proof. intros H. apply bl_high. rewrite map_length. exact H. Qed.

Lemma vals_zero C s rows : (forall row, In row rows -> length row = C) -> (XL (map Z.odd s) (map val rows) = 0 <-> forall j, (j < C)%nat -> Z.even (dot s rows j) = true).
Proof.
  intros HC. split.
  - intros H j Hj. rewrite <- Z.negb_odd, (dot_bit C) by assumption. rewrite H, Z.testbit_0_l. reflexivity.
  - intros H. apply bits_zero. intros k Hk. destruct (Z_lt_le_dec k (Z.of_nat C)).
    + pose proof (dot_bit C s rows (Z.to_nat (Z.of_nat C - 1 - k)) ltac:(lia) HC) as B. replace (Z.of_nat C - 1 - Z.of_nat (Z.to_nat (Z.of_nat C - 1 - k))) with k in B by lia. rewrite <- B, <- Z.negb_even, H by lia. reflexivity.
    + apply XL_high. intros x Hx. apply in_map_iff in Hx as (row & <- & Hr). apply val_high. rewrite HC by exact Hr. exact l.
Qed.

Lemma bin_odd x : x = 0 \/ x = 1 -> Z.b2z (Z.odd x) = x.
Proof. intros [-> | ->]; reflexivity. Qed.

Lemma map_odd_b2z l : map Z.odd (map Z.b2z l) = l.
Proof. rewrite map_map. rewrite <- (map_id l) at 2. apply map_ext. intros []; reflexivity. Qed.

Lemma map_b2z_odd s : (forall x, In x s -> x = 0 \/ x = 1) -> map Z.b2z (map Z.odd s) = s.
Proof. intros H. rewrite map_map. rewrite <- (map_id s) at 2. apply map_ext_in. intros x Hx. apply bin_odd, H, Hx. Qed.

Lemma sum_val R vs w s : length w = R -> (forall x, In x w -> x = 0 \/ x = 1) -> (forall v, In v vs -> length v = R) ->
  ((forall i, (i < length w)%nat -> nth i w 0 = dot s vs i mod 2) <-> val w = XL (map Z.odd s) (map val vs)).
Proof.
  intros Hw Bw Hv. split.
  - intros H. apply Z.bits_inj'. intros k Hk. destruct (Z_lt_le_dec k (Z.of_nat R)).
    + set (j := Z.to_nat (Z.of_nat R - 1 - k)). pose proof (dot_bit R s vs j ltac:(lia) Hv) as B. replace (Z.of_nat R - 1 - Z.of_nat j) with k in B by lia. rewrite <- B.
      pose proof (val_bit w j ltac:(lia)) as V. rewrite Hw in V. replace (Z.of_nat R - 1 - Z.of_nat j) with k in V by lia. rewrite V, H by lia. rewrite Zmod_odd. destruct (Z.odd (dot s vs j)); reflexivity.
    + rewrite val_high by lia. symmetry. apply XL_high. intros x Hx. apply in_map_iff in Hx as (v & <- & Hv'). apply val_high. rewrite Hv by exact Hv'. exact l.
  - intros H i Hi. rewrite Zmod_odd, (dot_bit R) by (assumption || lia). rewrite <- H. rewrite <- Hw, val_bit by exact Hi. rewrite <- (bin_odd (nth i w 0)) at 1 by (apply Bw, nth_In, Hi). destruct (Z.odd _); reflexivity.
Qed.

Lemma val_bitsl R h : (forall k, Z.of_nat R <= k -> Z.testbit h k = false) -> bl (bitsl R h) = h.
Proof.
  intros H. apply Z.bits_inj'. intros k Hk. destruct (Z_lt_le_dec k (Z.of_nat R)).
  - pose proof (bitsl_bl (bitsl R h)) as B. rewrite bitsl_length in B. pose proof (f_equal (fun l => nth (Z.to_nat (Z.of_nat R - 1 - k)) l false) B) as B'. cbv beta in B'. rewrite !bitsl_nth in B' by lia. replace (Z.of_nat R - 1 - Z.of_nat (Z.to_nat (Z.of_nat R - 1 - k))) with k in B' by lia. exact B'.
  - rewrite H by exact l. apply bl_high. rewrite bitsl_length. exact l.
Qed.

(** ** Counting *)
Definition lowb (C r : Z) : Z := hd 0 (filter (Z.testbit r) (zrange 0 C)).

Lemma lowb_low C r k : 0 <= k < C -> Z.testbit r k = true -> low r (lowb C r) /\ 0 <= lowb C r < C.
Proof.
  intros Hk T. destruct (low_exists r k ltac:(lia) T) as (c & L & Hc). assert (lowb C r = c); [|subst c; split; [exact L|destruct L; lia]].
  unfold lowb. destruct L as (L0 & L1 & L2). rewrite (zrange_app 0 c C) by lia. rewrite filter_app. assert (F : filter (Z.testbit r) (zrange 0 c) = []).
  { clear - L2. assert (H : forall x, In x (zrange 0 c) -> Z.testbit r x = false) by (intros x Hx%zrange_In; apply L2; lia). induction (zrange 0 c) as [|x l IH]; [reflexivity|]. cbn [filter]. rewrite H by (left; reflexivity). apply IH. intros y Hy. apply H. right. exact Hy. }
  rewrite F, zrange_cons by lia. cbn [app filter]. rewrite L1. reflexivity.
Qed.

Lemma nonzero_rows C rs : 0 <= C -> (forall c, 0 <= c < C -> uniq c rs) -> (forall r, In r rs -> forall k, C <= k -> Z.testbit r k = false) ->
  (length (filter (fun r => negb (Z.eqb r 0)) rs) <= Z.to_nat C)%nat.
Proof.
  intros HC U H. assert (NZ : forall r, In r rs -> r <> 0 -> low r (lowb C r) /\ 0 <= lowb C r < C).
  { intros r Hr N. destruct (existsb (Z.testbit r) (zrange 0 C)) eqn:Ex; [apply existsb_exists in Ex as (k & Hk%zrange_In & T); apply (lowb_low C r k Hk T)|].
    exfalso. apply N, bits_zero. intros k Hk. destruct (Z_lt_le_dec k C); [|apply (H r Hr); assumption]. destruct (Z.testbit r k) eqn:T; [|reflexivity]. assert (existsb (Z.testbit r) (zrange 0 C) = true); [|congruence]. apply existsb_exists. exists k. split; [apply zrange_In; lia|exact T]. }
  rewrite <- (map_length (lowb C)). replace (Z.to_nat C) with (length (zrange 0 C)) by (rewrite zrange_length; lia). apply NoDup_incl_length.
  - clear H. induction rs as [|r rs IH]; [constructor|]. cbn [filter]. assert (U' : forall c, 0 <= c < C -> uniq c rs) by (intros c Hc i j Hij; apply (U c Hc (S i) (S j)); cbn [length]; lia).
    specialize (IH U' ltac:(intros; apply NZ; [right; assumption|assumption])). destruct (Z.eqb_spec r 0) as [|Nr]; cbn [negb map]; [exact IH|]. constructor; [|exact IH]. intros X. apply in_map_iff in X as (r' & El & Hr'). apply filter_In in Hr' as [Hr' Nr']. apply negb_true_iff, Z.eqb_neq in Nr'.
    destruct (NZ r (or_introl eq_refl) Nr) as [L Hl]. destruct (NZ r' (or_intror Hr') Nr') as [L' _]. rewrite El in L'. apply (In_nth _ _ 0) in Hr' as (j & Hj & Ej). apply (U (lowb C r) Hl 0%nat (S j)); [cbn [length]; lia|]. cbn [nth]. rewrite Ej. split; assumption.
  - intros x Hx. apply in_map_iff in Hx as (r & <- & Hr). apply filter_In in Hr as [Hr N]. apply negb_true_iff, Z.eqb_neq in N. apply zrange_In, (NZ r Hr N).
Qed.

(** ** The theorem *)
Lemma combine_fst {A B} (l : list A) (l' : list B) : length l = length l' -> map fst (combine l l') = l.
Proof. revert l'. induction l as [|x l IH]; intros [|y l']; cbn; try discriminate; [reflexivity|]. intros [= H]. f_equal. apply IH, H. Qed.
Lemma combine_snd {A B} (l : list A) (l' : list B) : length l = length l' -> map snd (combine l l') = l'.
Proof. revert l'. induction l as [|x l IH]; intros [|y l']; cbn; try discriminate; [reflexivity|]. intros [= H]. f_equal. apply IH, H. Qed.

Lemma z2_ok C rows : (1 <= C)%nat -> rows <> [] -> (forall row, In row rows -> length row = C) ->
  exists vs, z2_gaussian_elimination rows = Ret vs /\ kernel_basis C rows vs /\ (length rows <= length vs + C)%nat.
Proof.
  intros HC Hne Hlen. unfold z2_gaussian_elimination. destruct rows as [|row0 rest] eqn:Er; [congruence|]. rewrite <- Er in *. assert (L0 : length row0 = C) by (apply Hlen; rewrite Er; left; reflexivity).
  assert (G : pyget rows 0 = Ret row0) by (rewrite Er; reflexivity). cbv zeta. rewrite G. cbn [bind]. rewrite L0.
  rewrite (mapM_ret (encode (Z.of_nat C)) val) by (intros row Hr; rewrite <- (Hlen row Hr); apply encode_ok). cbn [bind]. destruct (Z.ltb_spec (Z.of_nat C - 1) 0); [lia|].
  rewrite identity_ok, Nat2Z.id. clear row0 rest Er L0 G. set (R := length rows). set (r0 := map val rows).
  change (fold_left (fun rows i => eliminate (Z.shiftl 1 i) rows) (zrange 0 (Z.of_nat C)) (combine r0 (idl R))) with (elim_all C (combine r0 (idl R))).
  set (F := elim_all C (combine r0 (idl R))).
  assert (Lr0 : length r0 = R) by apply map_length. assert (LC : length r0 = length (idl R)) by (rewrite idl_length; exact Lr0).
  assert (LF : length F = R) by (unfold F; rewrite elim_all_length, combine_length, idl_length; lia).
  assert (FE : Forall (fun '(r, h) => r = E r0 h) F).
  { apply elim_all_closed; [intros r h r' h' -> ->; symmetry; apply E_lxor|]. rewrite <- Lr0. apply (init_E r0 r0 []). reflexivity. }
  assert (FH : Forall (fun x => forall k, Z.of_nat R <= k -> Z.testbit (snd x) k = false) F).
  { apply elim_all_closed; [intros r h r' h' H1 H2 k Hk; cbn [snd] in *; rewrite Z.lxor_spec, H1, H2 by exact Hk; reflexivity|]. pose proof (init_high R) as HI. rewrite <- (combine_snd r0 (idl R)) in HI by exact LC. rewrite Forall_map in HI. exact HI. }
  assert (FR : Forall (fun x => forall k, Z.of_nat C <= k -> Z.testbit (fst x) k = false) F).
  { apply elim_all_closed; [intros r h r' h' H1 H2 k Hk; cbn [fst] in *; rewrite Z.lxor_spec, H1, H2 by exact Hk; reflexivity|]. assert (HI : Forall (fun r => forall k, Z.of_nat C <= k -> Z.testbit r k = false) r0).
    { apply Forall_forall. intros r Hr k Hk. apply in_map_iff in Hr as (row & <- & Hr). apply val_high. rewrite Hlen by exact Hr. exact Hk. }
    rewrite <- (combine_fst r0 (idl R)) in HI by exact LC. rewrite Forall_map in HI. exact HI. }
  assert (FT : tri (map snd F)) by (apply elim_all_tri; rewrite combine_snd by exact LC; apply init_tri).
  assert (FU : forall c, 0 <= c < Z.of_nat C -> uniq c (map fst F)) by (intros c Hc; apply elim_all_uniq, Hc).
  assert (FRr : forall r, In r (map fst F) -> forall k, Z.of_nat C <= k -> Z.testbit r k = false).
  { intros r Hr. apply in_map_iff in Hr as (x & <- & Hx). rewrite Forall_forall in FR. apply FR, Hx. }
  clearbody F. set (p := fun x : Z * Z => let '(r, value) := x in negb (negb (r =? 0) || (value =? 0))).
  set (dec := fun x : Z * Z => map Z.b2z (bitsl R (snd x))).
  exists (map dec (filter p F)). split; [f_equal; apply map_ext; intros [r h]; unfold dec; cbn [snd]; rewrite decode_ok, app_nil_r; reflexivity|].
  assert (HV : map val (map dec (filter p F)) = map snd (filter p F)).
  { rewrite map_map. apply map_ext_in. intros [r h] Hx. apply filter_In in Hx as [Hx _]. unfold val, dec. rewrite map_odd_b2z. cbn [snd]. apply val_bitsl. rewrite Forall_forall in FH. apply (FH _ Hx). }
  assert (HL : forall v, In v (map dec (filter p F)) -> length v = R). { intros v Hv. apply in_map_iff in Hv as (x & <- & _). unfold dec. rewrite map_length. apply bitsl_length. }
  assert (NZ : forall x, In x F -> snd x <> 0).
  { clear - FT. induction F as [|y F IH]; intros x Hx; [contradiction|]. cbn [map tri] in FT. destruct FT as [(_ & T & _) FT]. destruct Hx as [<-|Hx]; [|apply IH; assumption]. intros X. rewrite X, Z.testbit_0_l in T. discriminate. }
  assert (Pp : forall x, In x F -> p x = (fst x =? 0)). { intros [r h] Hx. specialize (NZ _ Hx). cbn [p fst snd] in *. apply Z.eqb_neq in NZ. rewrite NZ, orb_false_r. apply negb_involutive. }
  split; [split|].
  - intros v Hv. split; [apply HL, Hv|]. apply in_map_iff in Hv as ([r h] & <- & Hx). split.
    + intros x Hx'. unfold dec in Hx'. apply in_map_iff in Hx' as ([] & <- & _); [right|left]; reflexivity.
    + apply (vals_zero C _ rows Hlen). unfold dec. rewrite map_odd_b2z. cbn [snd]. apply filter_In in Hx as [Hx Hp]. rewrite Pp in Hp by exact Hx. apply Z.eqb_eq in Hp. cbn [fst] in Hp. rewrite Forall_forall in FE. specialize (FE _ Hx). cbn beta iota in FE. unfold E in FE. rewrite Lr0 in FE. fold r0. congruence.
  - intros w (Lw & Bw & Kw). apply (vals_zero C w rows Hlen) in Kw. fold r0 in Kw. assert (EW : E r0 (val w) = 0). { unfold E, val. rewrite Lr0. unfold R. rewrite <- Lw, <- (map_length Z.odd w). rewrite bitsl_bl. exact Kw. }
    assert (WH : forall k, Z.of_nat R <= k -> Z.testbit (val w) k = false) by (intros k Hk; apply val_high; rewrite Lw; exact Hk).
    assert (XH : forall s k, Z.of_nat R <= k -> Z.testbit (XL s (map snd F)) k = false). { intros s k Hk. apply XL_high. intros h Hh. apply in_map_iff in Hh as (x & <- & Hx). rewrite Forall_forall in FH. apply (FH x Hx k Hk). }
    destruct (tri_span (map snd F) FT (val w)) as (s & Ls & Hs). rewrite map_length in Ls, Hs.
    assert (EqW : val w = XL s (map snd F)). { apply Z.lxor_eq. apply bits_zero. intros k Hk. destruct (Z_lt_le_dec k (Z.of_nat R)); [apply Hs; lia|]. rewrite Z.lxor_spec, WH, XH by exact l. reflexivity. }
    assert (X0 : XL s (map fst F) = 0) by (rewrite (XL_linear r0 F FE), <- EqW; exact EW).
    pose proof (rows_independent (Z.of_nat C) s (map fst F) ltac:(rewrite map_length; exact Ls) FU FRr X0) as RI. rewrite map_length in RI.
    destruct (restrict_ok p snd F s Ls) as (RL & RX).
    { intros i d Hi Ti. rewrite Pp by (apply nth_In, Hi). apply Z.eqb_eq. specialize (RI i Hi Ti). rewrite (nth_map_lt fst F i d) in RI by exact Hi. exact RI. }
    exists (map Z.b2z (restrict p F s)). split.
    + split; [rewrite !map_length; exact RL|]. split; [intros x Hx; apply in_map_iff in Hx as ([] & <- & _); [right|left]; reflexivity|].
      apply (sum_val R); [exact Lw|exact Bw|exact HL|]. rewrite map_odd_b2z, HV, RX. exact EqW.
    + intros s2 (L2 & B2 & S2). apply (sum_val R _ w s2 Lw Bw HL) in S2. rewrite HV in S2. rewrite <- (map_b2z_odd s2 B2). f_equal. rewrite !map_length in L2.
      destruct (expand_ok p snd F (map Z.odd s2)) as (X1 & X2 & X3); [rewrite map_length; exact L2|]. rewrite <- X3. f_equal.
      apply xors_zero; [congruence|]. apply (tri_independent (map snd F) FT); [rewrite xors_length, map_length by congruence; exact Ls|]. intros k Hk. rewrite XL_xors by (rewrite map_length; congruence). rewrite X2, <- S2, <- EqW, Z.lxor_nilpotent. apply Z.testbit_0_l.
  - rewrite map_length. pose proof (nonzero_rows (Z.of_nat C) (map fst F) ltac:(lia) FU FRr) as NR. rewrite Nat2Z.id in NR. fold R. rewrite <- LF.
    assert (Cnt : (length F = length (filter p F) + length (filter (fun r => negb (Z.eqb r 0)) (map fst F)))%nat); [|lia].
    clear - Pp. induction F as [|x F IH]; [reflexivity|]. cbn [map filter]. rewrite Pp by (left; reflexivity). specialize (IH ltac:(intros y Hy; apply Pp; right; exact Hy)). destruct (fst x =? 0); cbn [negb length]; lia.
Qed.
