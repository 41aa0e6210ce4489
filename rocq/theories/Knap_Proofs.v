(** * Knapsack: optimality and feasibility *)
From Coq Require Import ZArith List Bool Lia Sorting.Permutation Sorting.Sorted.
From Verif Require Import Base Knap_Model Knap_Spec.
Import ListNotations.
Open Scope Z_scope.

Lemma tv_cons x S : total_value (x :: S) = fst x + total_value S. Proof. reflexivity. Qed.
Lemma tw_cons x S : total_weight (x :: S) = snd x + total_weight S. Proof. reflexivity. Qed.
Lemma tv_nil : total_value [] = 0. Proof. reflexivity. Qed.
Lemma tw_nil : total_weight [] = 0. Proof. reflexivity. Qed.
Lemma tv_app S T : total_value (S ++ T) = total_value S + total_value T.
Proof. induction S as [|x S IH]; [rewrite tv_nil; reflexivity|]. cbn [app]. rewrite !tv_cons, IH. lia. Qed.
Lemma tw_app S T : total_weight (S ++ T) = total_weight S + total_weight T.
Proof. induction S as [|x S IH]; [rewrite tw_nil; reflexivity|]. cbn [app]. rewrite !tw_cons, IH. lia. Qed.
Lemma tv_perm S T : Permutation S T -> total_value S = total_value T.
Proof. induction 1; rewrite ?tv_cons; lia. Qed.
Lemma tw_perm S T : Permutation S T -> total_weight S = total_weight T.
Proof. induction 1; rewrite ?tw_cons; lia. Qed.

Definition nonneg_weights (items : list item) : Prop := Forall (fun it => 0 <= snd it) items.

Lemma selection_weight S l : selection S l -> nonneg_weights l -> 0 <= total_weight S.
Proof.
  induction 1 as [|x S l H IH|x S l H IH]; intros N; rewrite ?tw_nil, ?tw_cons; [lia| |];
    inversion_clear N as [|? ? N1 N2]; specialize (IH N2); lia.
Qed.

Lemma selection_nil l : selection [] l.
Proof. induction l; constructor; assumption. Qed.

Lemma selection_app S l S' l' : selection S l -> selection S' l' -> selection (S ++ S') (l ++ l').
Proof. induction 1; intros H'; cbn [app]; [exact H'|constructor; auto|constructor; auto]. Qed.

Lemma selection_rev S l : selection S l -> selection (rev S) (rev l).
Proof.
  induction 1 as [|x S l H IH|x S l H IH]; cbn [rev]; [constructor| |].
  - apply selection_app; [exact IH|]. repeat constructor.
  - rewrite <- (app_nil_r (rev S)). apply selection_app; [exact IH|]. repeat constructor.
Qed.

(** ** depth_first *)
Lemma knap_backtrack_ok cap : forall rest cv cw used best, nonneg_weights rest ->
  fst best <= fst (knap_backtrack cap rest cv cw used best) /\
  (forall S, selection S rest -> cw + total_weight S <= cap -> cv + total_value S <= fst (knap_backtrack cap rest cv cw used best)) /\
  (knap_backtrack cap rest cv cw used best = best \/
   exists S, selection S rest /\ cw + total_weight S <= cap /\ knap_backtrack cap rest cv cw used best = (cv + total_value S, used ++ S)).
Proof.
  induction rest as [|[v w] rest IH]; intros cv cw used best N; cbn [knap_backtrack]; destruct (Z.leb_spec cw cap) as [Hc|Hc].
  - destruct (Z.gtb_spec cv (fst best)) as [H|H]; cbn [fst].
    + split; [lia|]. split.
      * intros S HS _. inversion HS; subst. rewrite tv_nil. lia.
      * right. exists []. split; [constructor|]. rewrite tw_nil, tv_nil, app_nil_r, !Z.add_0_r. split; [exact Hc|reflexivity].
    + split; [lia|]. split; [|left; reflexivity]. intros S HS _. inversion HS; subst. rewrite tv_nil. lia.
  - split; [lia|]. split; [|left; reflexivity]. intros S HS. inversion HS; subst. rewrite tw_nil. lia.
  - inversion_clear N as [|? ? Nw N']. cbn [snd] in Nw.
    set (b1 := knap_backtrack cap rest (cv + v) (cw + w) (used ++ [(v, w)]) best).
    destruct (IH (cv + v) (cw + w) (used ++ [(v, w)]) best N') as (A1 & B1 & C1). fold b1 in A1, B1, C1.
    destruct (IH cv cw used b1 N') as (A2 & B2 & C2).
    split; [lia|]. split.
    + intros S HS HW. inversion HS as [|? S' ? HS'|? ? ? HS']; subst.
      * rewrite tw_cons, tv_cons in *. cbn [fst snd] in *. specialize (B1 S' HS'). lia.
      * apply B2; assumption.
    + destruct C2 as [C2|(S & HS & HW & C2)].
      * rewrite C2. destruct C1 as [C1|(S & HS & HW & C1)]; [left; exact C1|right].
        exists ((v, w) :: S). split; [constructor; exact HS|]. rewrite tw_cons, tv_cons. cbn [fst snd]. split; [lia|].
        rewrite C1, <- app_assoc. cbn [app]. f_equal. lia.
      * right. exists S. split; [constructor; exact HS|]. split; [exact HW|exact C2].
  - split; [lia|]. split; [|left; reflexivity]. intros S HS HW. exfalso.
    pose proof (selection_weight _ _ HS N). lia.
Qed.

Lemma knap_depth_first_ok items cap : nonneg_weights items -> 0 <= cap ->
  exists S, knap_depth_first items cap = (total_value S, S) /\ optimal items cap S.
Proof.
  intros N Hc. unfold knap_depth_first. destruct (knap_backtrack_ok cap items 0 0 [] (0, []) N) as (A & B & C).
  destruct C as [C|(S & HS & HW & C)]; rewrite C in *.
  - exists []. split; [reflexivity|]. split; [apply selection_nil|]. split; [rewrite tw_nil; lia|].
    intros S' H1 H2. rewrite tv_nil. specialize (B S' H1). cbn [fst] in B. lia.
  - exists S. split; [reflexivity|]. split; [exact HS|]. split; [lia|].
    intros S' H1 H2. specialize (B S' H1). cbn [fst] in B. lia.
Qed.

(** ** dynamic_programming *)
(** Value of the table for the items [r] (last item first) and capacity k. *)
Fixpoint Mf (r : list item) (k : Z) : Z :=
  match r with
  | [] => 0
  | (v, w) :: r' => if k <? w then Mf r' k else if Mf r' k >? v + Mf r' (k - w) then Mf r' k else v + Mf r' (k - w)
  end.

Definition tk (r : list item) (k : Z) : bool :=
  match r with [] => false | (v, w) :: r' => negb (k <? w) && negb (Mf r' k >? v + Mf r' (k - w)) end.

Fixpoint sel (r : list item) (k : Z) : list item :=
  match r with
  | [] => []
  | (v, w) :: r' => if tk r k then (v, w) :: sel r' (k - w) else sel r' k
  end.

Lemma sel_ok r : forall k, nonneg_weights r -> 0 <= k ->
  selection (sel r k) r /\ total_weight (sel r k) <= k /\ total_value (sel r k) = Mf r k.
Proof.
  induction r as [|[v w] r IH]; intros k N Hk.
  - split; [constructor|]. split; [exact Hk|reflexivity].
  - inversion_clear N as [|? ? Nw N']. cbn [snd] in Nw. cbn [sel Mf tk].
    destruct (Z.ltb_spec k w) as [H|H]; cbn [negb andb].
    + destruct (IH k N' Hk) as (A & B & C). split; [constructor; exact A|]. auto.
    + destruct (Mf r k >? v + Mf r (k - w)); cbn [negb].
      * destruct (IH k N' Hk) as (A & B & C). split; [constructor; exact A|]. auto.
      * destruct (IH (k - w) N' ltac:(lia)) as (A & B & C). split; [constructor; exact A|].
        rewrite tw_cons, tv_cons. cbn [fst snd]. lia.
Qed.

Lemma Mf_best r : forall k S, nonneg_weights r -> 0 <= k -> selection S r -> total_weight S <= k -> total_value S <= Mf r k.
Proof.
  induction r as [|[v w] r IH]; intros k S N Hk HS HW.
  - inversion HS; subst. cbn. lia.
  - pose proof (selection_weight _ _ HS N) as HS0.
    inversion_clear N as [|? ? Nw N']. cbn [snd] in Nw. cbn [Mf].
    inversion HS as [|? S' ? HS'|? ? ? HS']; subst.
    + rewrite tw_cons, tv_cons in *. cbn [fst snd] in *.
      pose proof (selection_weight _ _ HS' N'). destruct (Z.ltb_spec k w); [lia|].
      specialize (IH (k - w) S' N' ltac:(lia) HS' ltac:(lia)).
      destruct (Z.gtb_spec (Mf r k) (v + Mf r (k - w))); lia.
    + specialize (IH k S N' Hk HS' HW). destruct (Z.ltb_spec k w); [exact IH|].
      destruct (Z.gtb_spec (Mf r k) (v + Mf r (k - w))); lia.
Qed.

Lemma pyget_map_range (f : Z -> Z) n k : 0 <= k < n -> pyget (map f (zrange 0 n)) k = Ret (f k).
Proof.
  intros H. rewrite (pyget_nth _ _ (f 0)) by (rewrite map_length, zrange_length; lia).
  rewrite map_nth. f_equal. f_equal. rewrite zrange_nth by lia. lia.
Qed.

Lemma pair_mem_cons p q l : pair_mem p (q :: l) = ((fst p =? fst q) && (snd p =? snd q)) || pair_mem p l.
Proof. reflexivity. Qed.

Lemma dp_column_ok cap v w i r keep : 0 <= w -> (forall k, pair_mem (k, i + 1) keep = false) ->
  exists keep', dp_column cap v w i (map (Mf r) (zrange 0 (cap + 1))) keep = Ret (map (Mf ((v, w) :: r)) (zrange 0 (cap + 1)), keep') /\
  (forall k j, j <> i + 1 -> pair_mem (k, j) keep' = pair_mem (k, j) keep) /\
  (forall k, 0 <= k <= cap -> pair_mem (k, i + 1) keep' = tk ((v, w) :: r) k).
Proof.
  intros Hw Hk. unfold dp_column.
  match goal with |- context [foldM ?f ?l ?s0] =>
    destruct (foldM_inv f (fun pre s => fst s = map (Mf ((v, w) :: r)) pre /\
      (forall k j, j <> i + 1 -> pair_mem (k, j) (snd s) = pair_mem (k, j) keep) /\
      (forall k, pair_mem (k, i + 1) (snd s) = existsb (Z.eqb k) pre && tk ((v, w) :: r) k)) l s0)
      as (s' & E & H1 & H2 & H3) end.
  - cbn [fst snd map existsb andb]. split; [reflexivity|]. split; [reflexivity|exact Hk].
  - intros pre x post [new kp] E (H1 & H2 & H3). cbn [fst snd] in H1, H2, H3.
    assert (Hx : 0 <= x < cap + 1) by (apply zrange_In; rewrite E; apply in_or_app; right; left; reflexivity).
    rewrite pyget_map_range by exact Hx. cbn [bind].
    assert (Ex : forall k, existsb (Z.eqb k) (pre ++ [x]) = existsb (Z.eqb k) pre || (k =? x)).
    { intros k. rewrite existsb_app. cbn [existsb]. rewrite orb_false_r. reflexivity. }
    assert (G : forall b kp', tk ((v, w) :: r) x = b ->
      kp' = (if b then (x, i + 1) :: kp else kp) ->
      (forall k j, j <> i + 1 -> pair_mem (k, j) kp' = pair_mem (k, j) keep) /\
      (forall k, pair_mem (k, i + 1) kp' = existsb (Z.eqb k) (pre ++ [x]) && tk ((v, w) :: r) k)).
    { intros b kp' Hb ->. split.
      - intros k j Hj. rewrite <- H2 by exact Hj. destruct b; [|reflexivity]. rewrite pair_mem_cons. cbn [fst snd].
        destruct (Z.eqb_spec j (i + 1)); [contradiction|]. rewrite andb_false_r. reflexivity.
      - intros k. rewrite Ex. destruct b.
        + rewrite pair_mem_cons. cbn [fst snd]. rewrite Z.eqb_refl, andb_true_r, H3.
          destruct (Z.eqb_spec k x) as [-> |]; [rewrite Hb, orb_true_r; reflexivity|]. rewrite orb_false_r. reflexivity.
        + rewrite H3. destruct (Z.eqb_spec k x) as [-> |]; [rewrite Hb, !andb_false_r; reflexivity|]. rewrite orb_false_r. reflexivity. }
    destruct (Z.ltb_spec x w) as [Hxw|Hxw].
    + eexists. split; [reflexivity|]. cbn [fst snd]. split.
      * rewrite H1, map_app. cbn [map Mf]. destruct (Z.ltb_spec x w); [reflexivity|lia].
      * apply (G false); [|reflexivity]. cbn [tk]. destruct (Z.ltb_spec x w); [reflexivity|lia].
    + rewrite pyget_map_range by lia. cbn [bind]. destruct (Mf r x >? v + Mf r (x - w)) eqn:Eg.
      * eexists. split; [reflexivity|]. cbn [fst snd]. split.
        -- rewrite H1, map_app. cbn [map Mf]. destruct (Z.ltb_spec x w); [lia|]. rewrite Eg. reflexivity.
        -- apply (G false); [|reflexivity]. cbn [tk]. rewrite Eg, andb_false_r. reflexivity.
      * eexists. split; [reflexivity|]. cbn [fst snd]. split.
        -- rewrite H1, map_app. cbn [map Mf]. destruct (Z.ltb_spec x w); [lia|]. rewrite Eg. reflexivity.
        -- apply (G true); [|reflexivity]. cbn [tk]. rewrite Eg. destruct (Z.ltb_spec x w); [lia|reflexivity].
  - destruct s' as [new kp]. cbn [fst snd] in *. exists kp. split; [rewrite E, H1; reflexivity|]. split; [exact H2|].
    intros k Hk'. rewrite H3. replace (existsb (Z.eqb k) (zrange 0 (cap + 1))) with true; [reflexivity|].
    symmetry. apply existsb_exists. exists k. split; [apply zrange_In; lia|apply Z.eqb_refl].
Qed.

Fixpoint keepOK (cap : Z) (keep : list (Z * Z)) (r : list item) : Prop :=
  match r with
  | [] => True
  | _ :: r' => (forall k, 0 <= k <= cap -> pair_mem (k, Z.of_nat (length r)) keep = tk r k) /\ keepOK cap keep r'
  end.

Lemma keepOK_ext cap keep keep' r : (forall k j, j <= Z.of_nat (length r) -> pair_mem (k, j) keep' = pair_mem (k, j) keep) ->
  keepOK cap keep r -> keepOK cap keep' r.
Proof.
  induction r as [|x r IH]; [auto|]. intros H (A & B). cbn [length] in H. cbn [keepOK]. split.
  - intros k Hk. rewrite H by (cbn [length]; lia). apply A, Hk.
  - apply IH; [|exact B]. intros k j Hj. apply H. lia.
Qed.

Lemma dp_columns_ok cap : forall items r keep, nonneg_weights items ->
  keepOK cap keep r -> (forall k j, Z.of_nat (length r) < j -> pair_mem (k, j) keep = false) ->
  exists keep', dp_columns cap (Z.of_nat (length r)) items (map (Mf r) (zrange 0 (cap + 1))) keep
    = Ret (map (Mf (rev items ++ r)) (zrange 0 (cap + 1)), keep') /\ keepOK cap keep' (rev items ++ r).
Proof.
  induction items as [|[v w] items IH]; intros r keep N K F.
  - exists keep. split; [reflexivity|exact K].
  - inversion_clear N as [|? ? Nw N']. cbn [snd] in Nw. cbn [dp_columns].
    destruct (dp_column_ok cap v w (Z.of_nat (length r)) r keep Nw) as (kp & E & A & B); [intros k; apply F; lia|].
    rewrite E. cbn [bind].
    destruct (IH ((v, w) :: r) kp N') as (kp' & E' & K').
    + cbn [keepOK length]. split; [intros k Hk; rewrite <- B by exact Hk; f_equal; f_equal; lia|].
      apply (keepOK_ext cap keep); [|exact K]. intros k j Hj. apply A. lia.
    + intros k j Hj. cbn [length] in Hj. rewrite A by lia. apply F. lia.
    + replace (Z.of_nat (length ((v, w) :: r))) with (Z.of_nat (length r) + 1) in E' by (cbn [length]; lia).
      exists kp'. rewrite E'. cbn [rev]. rewrite <- app_assoc. split; [reflexivity|exact K'].
Qed.

Lemma dp_used_ok cap keep r : forall k, nonneg_weights r -> keepOK cap keep r -> 0 <= k <= cap ->
  dp_used keep r k (Z.of_nat (length r)) = sel r k.
Proof.
  induction r as [|[v w] r IH]; intros k N K Hk; [reflexivity|].
  inversion_clear N as [|? ? Nw N']. cbn [snd] in Nw. destruct K as (A & K').
  cbn [dp_used sel]. rewrite A by exact Hk.
  replace (Z.of_nat (length ((v, w) :: r)) - 1) with (Z.of_nat (length r)) by (cbn [length]; lia).
  destruct (tk ((v, w) :: r) k) eqn:Et.
  - cbn [snd]. rewrite IH; [reflexivity|exact N'|exact K'|].
    cbn [tk] in Et. apply andb_true_iff in Et as (Et & _). apply negb_true_iff, Z.ltb_ge in Et. lia.
  - apply IH; assumption.
Qed.

Lemma insert_item_perm x l : Permutation (insert_item x l) (x :: l).
Proof. induction l as [|y l IH]; cbn [insert_item]; [reflexivity|]. destruct (item_leb x y); [reflexivity|]. rewrite IH. apply perm_swap. Qed.
Lemma sorted_items_perm l : Permutation (sorted_items l) l.
Proof. induction l as [|x l IH]; [constructor|]. cbn [sorted_items fold_right]. rewrite insert_item_perm. constructor. exact IH. Qed.

Definition item_le (a b : item) : Prop := fst a < fst b \/ (fst a = fst b /\ snd a <= snd b).
Lemma item_leb_le a b : item_leb a b = true <-> item_le a b.
Proof. unfold item_leb, item_le. rewrite orb_true_iff, andb_true_iff, Z.ltb_lt, Z.eqb_eq, Z.leb_le. reflexivity. Qed.

Lemma insert_item_sorted x l : StronglySorted item_le l -> StronglySorted item_le (insert_item x l).
Proof.
  induction 1 as [|y l S IH F]; cbn [insert_item]; [constructor; constructor|].
  destruct (item_leb x y) eqn:E.
  - apply item_leb_le in E. constructor; [constructor; assumption|]. constructor; [exact E|].
    rewrite Forall_forall in *. intros z Hz. specialize (F z Hz). unfold item_le in *. lia.
  - constructor; [exact IH|]. rewrite Forall_forall in *. intros z Hz. apply (Permutation_in z (insert_item_perm x l)) in Hz.
    destruct Hz as [<-|Hz]; [|auto]. assert (~ item_le x y) by (rewrite <- item_leb_le; congruence). unfold item_le in *. lia.
Qed.
Lemma sorted_items_sorted l : StronglySorted item_le (sorted_items l).
Proof. induction l as [|x l IH]; [constructor|]. cbn [sorted_items fold_right]. apply insert_item_sorted, IH. Qed.

Lemma knap_dynamic_ok items cap : nonneg_weights items -> 0 <= cap ->
  exists S used, knap_dynamic items cap = Ret (total_value S, used) /\ Permutation used S /\ StronglySorted item_le used /\ optimal items cap S.
Proof.
  intros N Hc. unfold knap_dynamic.
  destruct (dp_columns_ok cap items [] [] N) as (keep & E & K).
  - exact I.
  - reflexivity.
  - cbn [length] in E. change (Z.of_nat 0) with 0 in E.
    rewrite (map_ext (Mf []) (fun _ => 0)) in E by reflexivity. rewrite E. cbn [bind]. rewrite app_nil_r in *.
    assert (N' : nonneg_weights (rev items)) by (apply Forall_rev, N).
    rewrite pyget_map_range by lia. cbn [bind].
    rewrite <- rev_length. rewrite (dp_used_ok cap) by (try assumption; lia).
    destruct (sel_ok (rev items) cap N' Hc) as (A & B & C).
    exists (rev (sel (rev items) cap)), (sorted_items (sel (rev items) cap)).
    assert (P : Permutation (rev (sel (rev items) cap)) (sel (rev items) cap)) by (symmetry; apply Permutation_rev).
    split; [rewrite (tv_perm _ _ P), C; reflexivity|]. split; [rewrite P; apply sorted_items_perm|].
    split; [apply sorted_items_sorted|]. split; [|split].
    + rewrite <- (rev_involutive items) at 2. apply selection_rev, A.
    + rewrite (tw_perm _ _ P). exact B.
    + intros S HS HW. rewrite (tv_perm _ _ P), C. 
      assert (PS : Permutation (rev S) S) by (symmetry; apply Permutation_rev).
      rewrite <- (tv_perm _ _ PS). apply Mf_best; [exact N'|exact Hc|apply selection_rev, HS|rewrite (tw_perm _ _ PS); exact HW].
Qed.

Lemma dp_columns_neg cap : cap < 0 -> forall items i keep, dp_columns cap i items [] keep = Ret ([], keep).
Proof.
  intros H. induction items as [|[v w] items IH]; intros i keep; [reflexivity|]. cbn [dp_columns]. unfold dp_column.
  rewrite zrange_nil by lia. cbn [foldM bind]. apply IH.
Qed.

Lemma knap_dynamic_neg items cap : cap < 0 -> knap_dynamic items cap = Raise IndexError.
Proof.
  intros H. unfold knap_dynamic. rewrite zrange_nil by lia. cbn [map]. rewrite dp_columns_neg by exact H. cbn [bind].
  unfold pyget, pyidx. cbn [length]. destruct (Z.leb_spec 0 cap); [lia|]. cbn [andb].
  destruct (Z.leb_spec (- Z.of_nat 0) cap); [lia|]. reflexivity.
Qed.

(** ** simulated_annealing *)
Definition bin (X : list Z) : Prop := Forall (fun x => x = 0 \/ x = 1) X.

Lemma knap_P_ok items X : length X = length items -> knap_P items X = Ret (total_value (masked X items)).
Proof.
  intros L. unfold knap_P.
  enough (G : forall k i t, Z.of_nat (length items) - i = Z.of_nat k -> 0 <= i ->
    foldM (fun total i => do x <- pyget X i; if x =? 0 then Ret total else do it <- pyget items i; Ret (total + fst it))
      (zrange i (Z.of_nat (length items))) t = Ret (t + total_value (masked (skipn (Z.to_nat i) X) (skipn (Z.to_nat i) items)))).
  { rewrite (G (length items)) by lia. reflexivity. }
  induction k as [|k IH]; intros i t Hk Hi.
  - rewrite zrange_nil by lia. cbn [foldM]. rewrite !skipn_all2 by lia. cbn [masked]. rewrite tv_nil. f_equal. lia.
  - rewrite (zrange_cons i) by lia. cbn [foldM]. rewrite (pyget_nth X i 0) by lia. cbn [bind].
    assert (E1 : skipn (Z.to_nat i) X = nth (Z.to_nat i) X 0 :: skipn (Z.to_nat (i + 1)) X).
    { replace (Z.to_nat (i + 1)) with (S (Z.to_nat i)) by lia. clear - L Hk Hi. assert (Z.to_nat i < length X)%nat by lia.
      clear - H. revert H. generalize (Z.to_nat i). induction X as [|x X IH]; intros [|n] H; cbn [length skipn nth] in *; try lia; [reflexivity|].
      apply IH. lia. }
    assert (E2 : skipn (Z.to_nat i) items = nth (Z.to_nat i) items (0, 0) :: skipn (Z.to_nat (i + 1)) items).
    { replace (Z.to_nat (i + 1)) with (S (Z.to_nat i)) by lia. assert (Z.to_nat i < length items)%nat by lia.
      clear - H. revert H. generalize (Z.to_nat i). induction items as [|x X IH]; intros [|n] H; cbn [length skipn nth] in *; try lia; [reflexivity|].
      apply IH. lia. }
    rewrite E1, E2. cbn [masked]. destruct (nth (Z.to_nat i) X 0 =? 0).
    + cbn [bind]. rewrite IH by lia. reflexivity.
    + rewrite (pyget_nth items i (0, 0)) by lia. cbn [bind]. rewrite IH by lia. rewrite tv_cons. f_equal. lia.
Qed.

Lemma masked_set k : forall X items d, (k < length X)%nat -> length X = length items ->
  nth k X 0 = 0 -> total_weight (masked (upd X k 1) items) = total_weight (masked X items) + snd (nth k items d).
Proof.
  induction k as [|k IH]; intros [|x X] [|it items] d Hk L H; cbn [length] in *; try lia; cbn [nth upd masked] in *.
  - rewrite H. cbn [Z.eqb]. rewrite tw_cons. lia.
  - destruct (x =? 0); rewrite ?tw_cons, IH with (d := d) by (auto; lia); lia.
Qed.

Lemma masked_unset k : forall X items d, (k < length X)%nat -> length X = length items ->
  nth k X 0 = 1 -> total_weight (masked (upd X k 0) items) = total_weight (masked X items) - snd (nth k items d).
Proof.
  induction k as [|k IH]; intros [|x X] [|it items] d Hk L H; cbn [length] in *; try lia; cbn [nth upd masked] in *.
  - rewrite H. cbn [Z.eqb]. rewrite tw_cons. lia.
  - destruct (x =? 0); rewrite ?tw_cons, IH with (d := d) by (auto; lia); lia.
Qed.

Lemma masked_unset_value k : forall X items d, (k < length X)%nat -> length X = length items ->
  nth k X 0 = 1 -> total_value (masked (upd X k 0) items) = total_value (masked X items) - fst (nth k items d).
Proof.
  induction k as [|k IH]; intros [|x X] [|it items] d Hk L H; cbn [length] in *; try lia; cbn [nth upd masked] in *.
  - rewrite H. cbn [Z.eqb]. rewrite tv_cons. lia.
  - destruct (x =? 0); rewrite ?tv_cons, IH with (d := d) by (auto; lia); lia.
Qed.

Lemma upd_bin X k b : bin X -> b = 0 \/ b = 1 -> bin (upd X k b).
Proof.
  intros H Hb. revert k. induction H as [|x X Hx H IH]; intros [|k]; cbn [upd]; constructor; auto. apply IH.
Qed.

Definition aInv (items : list item) (cap : Z) (s : anneal) : Prop :=
  length (a_items s) = length items /\ bin (a_items s) /\ a_weight s = total_weight (masked (a_items s) items) /\ a_weight s <= cap /\
  length (a_best_items s) = length items /\ bin (a_best_items s) /\ total_weight (masked (a_best_items s) items) <= cap /\
  a_best_value s = total_value (masked (a_best_items s) items).

(** The comparison is made with the difference [- v] for the value [v] of an item. *)
Lemma anneal_step_ok items cap s j test : nonneg_weights items -> 0 <= j < Z.of_nat (length items) -> aInv items cap s ->
  (exists s', anneal_step items cap s (j, test) = Ret s' /\ aInv items cap s' /\ a_best_value s <= a_best_value s') \/
  (anneal_step items cap s (j, test) = Raise OverflowError /\ exists it, In it items /\ test (- fst it) = None).
Proof.
  intros N Hj (L & B & W & C & L' & B' & C' & V'). unfold anneal_step.
  rewrite (pyget_nth (a_items s) j 0) by lia. cbn [bind]. rewrite pyset_upd by lia. cbn [bind].
  rewrite (pyget_nth items j (0, 0)) by lia. cbn [bind].
  set (k := Z.to_nat j). set (x := nth k (a_items s) 0).
  assert (Hx : x = 0 \/ x = 1). { unfold x. unfold bin in B. rewrite Forall_forall in B. apply B. apply nth_In. lia. }
  assert (Hw : 0 <= snd (nth k items (0, 0))). { unfold nonneg_weights in N. rewrite Forall_forall in N. apply N. apply nth_In. lia. }
  assert (Inv : aInv items cap s) by (repeat split; assumption).
  destruct Hx as [Hx|Hx]; rewrite Hx.
  - change (1 - 0) with 1. cbn [Z.eqb negb andb].
    pose proof (masked_set k (a_items s) items (0, 0) ltac:(lia) L Hx) as M.
    destruct (Z.gtb_spec (a_weight s + snd (nth k items (0, 0))) cap) as [H|H].
    + left. exists s. split; [reflexivity|]. split; [exact Inv|lia].
    + left. rewrite knap_P_ok by (rewrite upd_length; exact L). cbn [bind].
      destruct (Z.gtb_spec (total_value (masked (upd (a_items s) k 1) items)) (a_best_value s)) as [H'|H'];
        eexists; (split; [reflexivity|]); (split; [|cbn [a_best_value]; lia]); unfold aInv; cbn [a_items a_weight a_best_items a_best_value];
        rewrite ?upd_length; repeat split; try assumption; try (apply upd_bin; auto); try lia; try (rewrite M; lia).
  - change (1 - 1) with 0. cbn [Z.eqb negb andb].
    pose proof (masked_unset k (a_items s) items (0, 0) ltac:(lia) L Hx) as M.
    pose proof (masked_unset_value k (a_items s) items (0, 0) ltac:(lia) L Hx) as MV.
    rewrite !knap_P_ok by (rewrite ?upd_length; exact L). cbn [bind]. rewrite MV.
    replace (total_value (masked (a_items s) items) - fst (nth k items (0, 0)) - total_value (masked (a_items s) items)) with (- fst (nth k items (0, 0))) by lia.
    destruct (test (- fst (nth k items (0, 0)))) as [[|]|] eqn:Et; [left|left|right; split; [reflexivity|exists (nth k items (0, 0)); split; [apply nth_In; lia|exact Et]]].
    + eexists. split; [reflexivity|]. split; [|cbn [a_best_value]; lia]. unfold aInv. cbn [a_items a_weight a_best_items a_best_value].
      rewrite upd_length. repeat split; try assumption; try (apply upd_bin; auto); try lia; try (rewrite M; lia).
    + exists s. split; [reflexivity|]. split; [exact Inv|lia].
Qed.

Lemma masked_zero (items : list item) : masked (map (fun _ => 0) items) items = [].
Proof. induction items; [reflexivity|]. cbn [map masked Z.eqb]. assumption. Qed.

Lemma aInv_zero items cap : 0 <= cap ->
  aInv items cap {| a_items := map (fun _ => 0) items; a_weight := 0; a_best_items := map (fun _ => 0) items; a_best_value := 0 |}.
Proof.
  intros Hc. unfold aInv. cbn [a_items a_weight a_best_items a_best_value]. rewrite masked_zero, tw_nil, tv_nil, map_length.
  assert (bin (map (fun _ : item => 0) items)).
  { apply Forall_forall. intros x Hx. apply in_map_iff in Hx as (y & <- & _). auto. }
  repeat split; try assumption; try lia.
Qed.

Lemma knap_annealing_any items cap draws : nonneg_weights items -> 0 <= cap -> items <> [] ->
  Forall (fun d => 0 <= fst d < Z.of_nat (length items)) draws ->
  (exists X, knap_annealing items cap draws = Ret (total_value (masked X items), X) /\
    length X = length items /\ bin X /\ total_weight (masked X items) <= cap) \/
  (knap_annealing items cap draws = Raise OverflowError /\ exists j test it, In (j, test) draws /\ In it items /\ test (- fst it) = None).
Proof.
  intros N Hc Hne Hd. unfold knap_annealing.
  destruct (Z.eqb_spec (Z.of_nat (length items)) 0) as [H|H]; [destruct items; [congruence|cbn in H; lia]|].
  assert (I0 := aInv_zero items cap Hc). revert I0. match goal with |- aInv _ _ ?s0 -> _ => generalize s0 end.
  induction draws as [|(j, test) draws IH]; intros s I; cbn [foldM].
  - left. cbn [bind]. destruct I as (_ & _ & _ & _ & L' & B' & C' & V'). exists (a_best_items s). split; [rewrite V'; reflexivity|]. auto.
  - inversion_clear Hd as [|? ? Hj Hd']. destruct (anneal_step_ok items cap s j test N Hj I) as [(s' & -> & I' & _)|(-> & it & Hi & Et)]; cbn [bind].
    + destruct (IH Hd' s' I') as [O|(-> & j' & t' & it & A & B & C)]; [left; exact O|right]. split; [reflexivity|]. exists j', t', it. split; [right; exact A|]. split; assumption.
    + right. split; [reflexivity|]. exists j, test, it. split; [left; reflexivity|]. split; assumption.
Qed.

Lemma masked_selection items : forall X, length X = length items -> selection (masked X items) items.
Proof.
  induction items as [|it items IH]; intros [|x X] L; cbn [length] in L; try lia; cbn [masked]; [constructor|].
  destruct (x =? 0); constructor; apply IH; lia.
Qed.
