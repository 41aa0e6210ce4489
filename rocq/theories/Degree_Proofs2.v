(** * Erdos-Gallai: the inequalities hold in every graph *)
From Coq Require Import ZArith List Bool Lia Permutation.
From Verif Require Import Base Py Lists Ham_Proofs3 Degree_Spec Degree_Model Degree_Proofs.
Import ListNotations.
Open Scope Z_scope.

Definition sumn (a n : nat) (f : nat -> Z) : Z := zsum (map f (seq a n)).

Lemma hm_sum n r : how_many n r = sumn 0 n (fun y => b2z (r y)).
Proof. unfold how_many, sumn. rewrite <- (zsum_filter r). reflexivity. Qed.

Lemma sumn_le a n f h : (forall y, (a <= y < a + n)%nat -> f y <= h y) -> sumn a n f <= sumn a n h.
Proof.
  revert a. induction n as [|n IH]; intros a H; [reflexivity|]. unfold sumn in *. cbn [seq map]. rewrite !zsum_cons. specialize (H a) as H0. specialize (IH (S a)).
  assert (forall y, (S a <= y < S a + n)%nat -> f y <= h y) by (intros y Hy; apply H; lia). specialize (IH H1). lia.
Qed.

Lemma sumn_list : forall S f a, (forall x d, nth_error S x = Some d -> d = f (a + x)%nat) -> zsum S = sumn a (length S) f.
Proof.
  induction S as [|s S IH]; intros f a H; [reflexivity|]. unfold sumn. cbn [length seq map]. rewrite !zsum_cons. rewrite (H O s eq_refl), Nat.add_0_r.
  fold (sumn (Datatypes.S a) (length S) f). rewrite (IH f (Datatypes.S a)); [reflexivity|]. intros x d E. rewrite (H (Datatypes.S x) d E). f_equal. lia.
Qed.

Lemma sumn_const a n c : sumn a n (fun _ => c) = Z.of_nat n * c.
Proof. revert a. induction n as [|n IH]; intros a; [reflexivity|]. unfold sumn in *. cbn [seq map]. rewrite zsum_cons, IH. lia. Qed.

Lemma eg_inequality A t B : graphic (A ++ t :: B) ->
  zsum A + t <= Z.of_nat (length A) * (Z.of_nat (length A) + 1) + zsum (map (Z.min (Z.of_nat (length A) + 1)) B).
Proof.
  intros (adj & Sy & Ir & D). set (K := Datatypes.S (length A)). set (m := length B).
  assert (Ln : length (A ++ t :: B) = (K + m)%nat) by (rewrite app_length; cbn [length]; unfold K, m; lia). rewrite Ln in D.
  assert (Split : forall r, how_many (K + m) r = how_many K r + sumn K m (fun y => b2z (r y))).
  { intros r. rewrite !hm_sum. unfold sumn. rewrite seq_app, map_app, zsum_app. reflexivity. }
  assert (L : zsum A + t = sumn 0 K (fun x => how_many (K + m) (adj x))).
  { transitivity (zsum (A ++ [t])); [rewrite zsum_app, zsum_cons; cbn; lia|]. replace K with (length (A ++ [t])) by (rewrite app_length; cbn; unfold K; lia).
    apply sumn_list. intros x d E. cbn [Nat.add]. replace (length (A ++ [t]) + m)%nat with (K + m)%nat by (rewrite app_length; cbn; unfold K; lia). apply D. rewrite <- E.
    change (A ++ t :: B) with (A ++ [t] ++ B). rewrite app_assoc. apply nth_error_app1, nth_error_Some. congruence. }
  assert (R : zsum (map (Z.min (Z.of_nat (length A) + 1)) B) = sumn K m (fun y => Z.min (Z.of_nat K) (how_many (K + m) (adj y)))).
  { replace m with (length (map (Z.min (Z.of_nat (length A) + 1)) B)) at 1 by (rewrite map_length; reflexivity). apply sumn_list. intros x d E. rewrite nth_error_map in E.
    destruct (nth_error B x) as [e|] eqn:Eb; [|discriminate]. cbn in E. injection E as <-. f_equal; [unfold K; lia|]. apply D. rewrite nth_error_app2 by (unfold K; lia).
    replace (K + x - length A)%nat with (Datatypes.S x) by (unfold K; lia). exact Eb. }
  rewrite L, R. transitivity (sumn 0 K (fun x => (Z.of_nat K - 1) + sumn K m (fun y => b2z (adj x y)))).
  - apply sumn_le. intros x Hx. rewrite Split. assert (how_many K (adj x) < Z.of_nat K); [|lia].
    apply Z.lt_le_trans with (how_many K (fun _ => true)); [|apply hm_range]. apply (hm_lt _ _ _ x); [lia|apply Ir|reflexivity|reflexivity].
  - unfold sumn at 1. rewrite (zsum_plus (fun _ => Z.of_nat K - 1)). fold (sumn 0 K (fun _ => Z.of_nat K - 1)). rewrite sumn_const.
    unfold sumn at 1. rewrite zsum_swap. fold (sumn 0 K (fun y => 0)). change (zsum (map (fun y => zsum (map (fun x => b2z (adj x y)) (seq 0 K))) (seq K m))) with (sumn K m (fun y => sumn 0 K (fun x => b2z (adj x y)))).
    assert (M : sumn K m (fun y => sumn 0 K (fun x => b2z (adj x y))) <= sumn K m (fun y => Z.min (Z.of_nat K) (how_many (K + m) (adj y)))).
    { apply sumn_le. intros y Hy. assert (Ey : sumn 0 K (fun x => b2z (adj x y)) = how_many K (adj y)) by (rewrite hm_sum; apply zsum_ext; intros x _; rewrite Sy; reflexivity). rewrite Ey.
      apply Z.min_glb; [apply hm_range|]. rewrite Split. assert (0 <= sumn K m (fun y0 => b2z (adj y y0))); [|lia]. transitivity (sumn K m (fun _ => 0)); [rewrite sumn_const; lia|].
      apply sumn_le. intros z _. unfold b2z. destruct (adj y z); lia. }
    unfold K in *. lia.
Qed.

Lemma eg_loop_ok : forall T k s,
  (forall A t B, T = A ++ t :: B -> s + zsum A + t <= (k + Z.of_nat (length A)) * (k + Z.of_nat (length A) + 1) + zsum (map (Z.min (k + Z.of_nat (length A) + 1)) B)) ->
  eg_loop k s T = true.
Proof.
  induction T as [|t T IH]; intros k s H; [reflexivity|]. cbn [eg_loop]. destruct (Z.ltb_spec (k * (k + 1) + zsum (map (Z.min (k + 1)) T)) (s + t)) as [L|_].
  - exfalso. specialize (H [] t T eq_refl). cbn [length zsum fold_right] in H. rewrite !Z.add_0_r in H. lia.
  - apply IH. intros A u B E. specialize (H (t :: A) u B ltac:(rewrite E; reflexivity)). rewrite zsum_cons in H. cbn [length] in H.
    replace (k + Z.of_nat (Datatypes.S (length A))) with (k + 1 + Z.of_nat (length A)) in H by lia. lia.
Qed.

Lemma erdos_gallai_necessary S : graphic S -> is_graphic_erdos_gallai S = true.
Proof.
  intros G. unfold is_graphic_erdos_gallai. apply eg_loop_ok. intros A t B E.
  assert (P : Permutation S (A ++ t :: B)) by (rewrite <- E, <- Permutation_rev; symmetry; apply zsort_perm).
  pose proof (eg_inequality A t B (graphic_perm _ _ P G)). rewrite !Z.add_0_l. exact H.
Qed.
