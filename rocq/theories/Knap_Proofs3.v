(** * Branch and bound for the knapsack problem is sound for large values *)
From Coq Require Import ZArith QArith List Bool Lia Lqa Permutation.
From Verif Require Import Base Lists Double_Model Knap_Model Knap_Spec Knap_Proofs Knap_Proofs2.
Import ListNotations.
Open Scope Z_scope.

Definition mid (t : uitem) : Prop := 0 <= uc_v t /\ 0 <= uc_w t.

Lemma uv_nonneg l : Forall mid l -> 0 <= uv l.
Proof. induction 1 as [|t l [H _] F IH]; [cbn; lia|]. rewrite uv_cons. lia. Qed.

Lemma bound_loop_range target : forall rest value weight u, Forall mid rest -> 0 <= value -> 0 <= weight <= target ->
  0 <= fst (fst (bound_loop rest target value weight u)) <= value + uv rest /\ 0 <= snd (fst (bound_loop rest target value weight u)) <= target.
Proof.
  induction rest as [|t rest IH]; intros value weight u F Hv Hw; cbn [bound_loop].
  - cbn. lia.
  - inversion_clear F as [|? ? [Ft1 Ft2] F']. pose proof (uv_nonneg rest F'). rewrite uv_cons. rewrite Z.gtb_ltb. destruct (Z.ltb_spec target (weight + uc_w t)) as [L|L].
    + cbn. lia.
    + specialize (IH (value + uc_v t) (weight + uc_w t) (ratio t) F' ltac:(lia) ltac:(lia)). lia.
Qed.

Lemma bb_bound_some rest cv target : Forall mid rest -> 0 <= cv <= 2 ^ 500 -> 0 <= target <= 2 ^ 500 -> uv rest <= 2 ^ 500 -> exists b, bb_bound rest cv target = Ret b.
Proof.
  intros F Hc Ht Hu. unfold bb_bound, optimistic_bound. pose proof (bound_loop_range target rest 0 0 0%Q F ltac:(lia) ltac:(lia)) as (A & B).
  destruct (bound_loop rest target 0 0 0%Q) as [[v w] u]. cbn [fst snd] in A, B. assert (2 ^ 500 < 2 ^ 1023) by (apply Z.pow_lt_mono_r; lia).
  rewrite flt_small by lia. cbn [bind]. rewrite flt_small by lia. cbn [bind]. rewrite flt_small by lia. cbn [bind]. eexists. reflexivity.
Qed.

Section Sound.
  Context (cap : Z) (U : list uitem).
  Hypothesis Hcap : 0 <= cap <= 2 ^ 500.
  Hypothesis FU : Forall mid U.
  Hypothesis HU : uv U <= 2 ^ 500.

  Definition feasible (r : Z * list uitem) : Prop := sub (snd r) U /\ uw (snd r) <= cap /\ fst r = uv (snd r).

  Lemma sub_Forall S l : sub S l -> Forall mid l -> Forall mid S.
  Proof. intros H F. rewrite Forall_forall in *. intros x Hx. apply F, (sub_In _ _ _ H Hx). Qed.

  Lemma sub_uv S l : sub S l -> Forall mid l -> uv S <= uv l.
  Proof. induction 1 as [|t S l H IH|t S l H IH]; intros F; [cbn; lia| |]; inversion_clear F as [|? ? [F1 F2] F']; specialize (IH F'); rewrite ?uv_cons; lia. Qed.

  Lemma bb_sound : forall rest cv cw used best, sub (used ++ rest) U -> cv = uv used -> cw = uw used -> feasible best ->
    exists r, bb_backtrack cap rest cv cw used best = Ret r /\ feasible r.
  Proof using Hcap FU HU.
    assert (sub_pre : forall (A B : list uitem), sub A (A ++ B)) by (induction A as [|x A IH]; intros B; [apply sub_nil_l|cbn [app]; constructor; apply IH]).
    assert (sub_mid : forall (A : list uitem) t B, sub (A ++ B) (A ++ t :: B)) by (induction A as [|x A IH]; intros t B; cbn [app]; constructor; [apply sub_refl|apply IH]).
    assert (sub_trans : forall (A B C : list uitem), sub B C -> sub A B -> sub A C).
    { intros A B C H. revert A. induction H as [|x S l H IH|x S l H IH]; intros A HA; [exact HA| |constructor; apply IH, HA].
      inversion HA as [|? S0 ? HA'|? ? ? HA']; subst; constructor; apply IH; assumption. }
    induction rest as [|t rest IH]; intros cv cw used best HS Ev Ew Hb; cbn [bb_backtrack]; destruct (Z.leb_spec cw cap) as [L|L];
      try (exists best; split; [reflexivity|exact Hb]).
    - eexists. split; [reflexivity|]. rewrite app_nil_r in HS. destruct (cv >? fst best); [|exact Hb]. split; [exact HS|]. cbn [fst snd]. lia.
    - assert (HSu : sub used U) by (apply (sub_trans _ _ _ HS), sub_pre).
      set (b0 := if cv >? fst best then (cv, used) else best). assert (B0 : feasible b0) by (unfold b0; destruct (cv >? fst best); [|exact Hb]; split; [exact HSu|]; cbn [fst snd]; lia). clearbody b0. clear best Hb.
      assert (HST : sub (used ++ rest) U) by (apply (sub_trans _ _ _ HS), sub_mid).
      pose proof (sub_Forall _ _ HS FU) as FS. apply Forall_app in FS as [Fu Fr]. pose proof (sub_uv _ _ HS FU) as VS. assert (Vapp : uv (used ++ t :: rest) = uv used + uv (t :: rest)).
      { clear. induction used as [|x used IH]; [reflexivity|]. cbn [app]. rewrite !(uv_cons x), IH. lia. }
      pose proof (uv_nonneg used Fu) as V1. pose proof (uv_nonneg _ Fr) as V2.
      assert (Ww : 0 <= cw). { subst cw. clear -Fu. induction Fu as [|x l [_ H] F IH]; [cbn; lia|]. rewrite uw_cons. lia. }
      destruct (bb_bound_some (t :: rest) cv (cap - cw) Fr ltac:(lia) ltac:(lia) ltac:(lia)) as (bound & ->). cbn [bind].
      assert (SK : forall b, feasible b -> exists r, (if Qle_bool bound (inject_Z (fst b)) then Ret b else bb_backtrack cap rest cv cw used b) = Ret r /\ feasible r).
      { intros b Fb. destruct (Qle_bool _ _); [exists b; split; [reflexivity|exact Fb]|]. apply IH; assumption. }
      destruct (_ <=? cap); [|apply SK, B0]. destruct (Qle_bool _ _); [exists b0; split; [reflexivity|exact B0]|].
      destruct (IH (cv + uc_v t) (cw + uc_w t) (used ++ [t]) b0) as (b1 & E1 & F1).
      + rewrite <- app_assoc. exact HS.
      + rewrite Ev. clear. induction used as [|x used IH]; [cbn; lia|]. cbn [app]. rewrite !uv_cons. lia.
      + rewrite Ew. clear. induction used as [|x used IH]; [cbn; lia|]. cbn [app]. rewrite !uw_cons. lia.
      + exact B0.
      + rewrite E1. cbn [bind]. apply SK, F1.
  Qed.
End Sound.

Lemma uc_check_large items : Forall (fun it => 0 <= fst it <= 2 ^ 500 /\ 0 < snd it <= 2 ^ 500) items -> uc_check items = Ret tt.
Proof.
  intros F. unfold uc_check. assert (2 ^ 500 < 2 ^ 1023) by (apply Z.pow_lt_mono_r; lia). induction F as [|x l H' F IH]; [reflexivity|]. cbn [foldM].
  rewrite flt_small by lia. cbn [bind]. rewrite flt_small by lia. cbn [bind]. destruct (fl_int (snd x) ltac:(lia)) as (A & _). pose proof (inj_1 (snd x) ltac:(lia)) as o. pose proof eps_val as Ee. rewrite Ee in A.
  destruct (Qeq_bool (fl (inject_Z (snd x))) 0) eqn:E; [apply Qeq_bool_iff in E; lra|]. cbn [bind]. exact IH.
Qed.

Lemma knap_branch_and_bound_sound items cap : Forall (fun it => 0 <= fst it /\ 0 < snd it <= 2 ^ 500) items -> 0 <= cap <= 2 ^ 500 -> total_value items <= 2 ^ 500 ->
  exists S used, knap_branch_and_bound items cap = Ret (total_value S, used) /\ Permutation (map fst used) S /\ selection S items /\ total_weight S <= cap /\
    NoDup (map uc_i used) /\ (forall t, In t used -> 0 <= uc_i t /\ nth_error items (Z.to_nat (uc_i t)) = Some (fst t)).
Proof.
  intros F Hc Htv. assert (F49 : Forall (fun it => 0 <= fst it <= 2 ^ 500 /\ 0 < snd it <= 2 ^ 500) items).
  { rewrite Forall_forall in *. intros it Hit. pose proof (F it Hit) as X. split; [|apply X]. split; [apply X|]. apply Z.le_trans with (total_value items); [|exact Htv]. apply total_value_in; [|exact Hit]. apply Forall_forall. intros y Hy. apply F, Hy. }
  clear F. rename F49 into F. unfold knap_branch_and_bound. rewrite uc_check_large by exact F. cbn [bind].
  set (U := uc_enum 0 items). pose proof (uc_sort_perm U) as P.
  assert (G : Forall mid (uc_sort U)).
  { rewrite Forall_forall in *. intros t Ht. apply (Permutation_in t P) in Ht. apply uc_enum_In in Ht as (k & Hk & _).
    apply nth_error_In in Hk. apply F in Hk. unfold mid, uc_v, uc_w. lia. }
  assert (NI : NoDup (map uc_i (uc_sort U))).
  { eapply Permutation_NoDup; [apply Permutation_map, Permutation_sym, P|]. unfold U. rewrite uc_enum_idx. apply zrange_NoDup. }
  assert (sub_map : forall (S l : list uitem), sub S l -> sub (map uc_i S) (map uc_i l)).
  { induction 1; cbn [map]; constructor; assumption. }
  assert (Huv : uv (uc_sort U) <= 2 ^ 500).
  { rewrite (uv_perm _ _ P). unfold U. assert (X : forall i l, uv (uc_enum i l) = total_value l); [|rewrite X; exact Htv]. clear. intros i l. revert i. induction l as [|[v w] l IH]; intros i; [reflexivity|]. cbn [uc_enum]. rewrite uv_cons, IH. reflexivity. }
  destruct (bb_sound cap (uc_sort U) Hc G Huv (uc_sort U) 0 0 [] (0, [])) as ([v S] & Er & HS & HW & HV); [apply sub_refl|reflexivity|reflexivity|split; [apply sub_nil_l|cbn; lia]|].
  cbn [fst snd] in HS, HW, HV. rewrite Er. subst v. destruct (sub_perm S (uc_sort U) HS U P) as (S' & PS & HS').
  exists (map fst S'), S. split; [rewrite tv_map, <- (uv_perm _ _ PS); reflexivity|].
  split; [apply Permutation_map, PS|]. split; [apply (sub_enum 0), HS'|]. split; [rewrite tw_map, <- (uw_perm _ _ PS); lia|]. split.
  - eapply sub_NoDup; [apply sub_map, HS|exact NI].
  - intros t Ht. apply (sub_In _ _ _ HS) in Ht. apply (Permutation_in t P) in Ht. apply uc_enum_In in Ht as (k & Hk & E).
    split; [lia|]. rewrite E. replace (Z.to_nat (0 + Z.of_nat k)) with k by lia. exact Hk.
Qed.
