(** * The distance matrix *)
From Coq Require Import ZArith List Bool Lia.
From Verif Require Import Base Lists Euc_Model Euc_Spec.
Import ListNotations.
Open Scope Z_scope.

Section Euclid.
Context {F : Type} (zero inf : F) (add sub : F -> F -> F) (square root : F -> F).
Local Notation distance := (distance add sub square root).
Local Notation entry M i j := (nth j (nth i M []) zero).

Definition squared (n : nat) (M : list (list F)) : Prop := length M = n /\ forall i, (i < n)%nat -> length (nth i M []) = n.

Lemma set_entry_ok n M i j v : squared n M -> (i < n)%nat -> (j < n)%nat -> exists M', set_entry M (Z.of_nat i) (Z.of_nat j) v = Ret M' /\ squared n M' /\
  forall a b, (a < n)%nat -> (b < n)%nat -> entry M' a b = if (a =? i)%nat && (b =? j)%nat then v else entry M a b.
Proof.
  intros (L & R) Hi Hj. unfold set_entry. rewrite (pyget_nth M _ []) by lia. cbn [bind]. rewrite Nat2Z.id.
  rewrite pyset_upd by (rewrite R by exact Hi; lia). cbn [bind]. rewrite pyset_upd by lia. rewrite !Nat2Z.id. eexists. split; [reflexivity|]. split.
  - split; [rewrite upd_length; exact L|]. intros k Hk. rewrite upd_nth by lia. destruct (Nat.eqb_spec k i); [subst; rewrite upd_length|]; apply R; assumption.
  - intros a b Ha Hb. rewrite upd_nth by lia. destruct (Nat.eqb_spec a i) as [->|]; [|reflexivity]. rewrite upd_nth by (rewrite R by exact Hi; lia). reflexivity.
Qed.

Definition wanted (points : list (F * F)) (a b : nat) : F :=
  if (a =? b)%nat then inf else distance (nth (Nat.max a b) points (zero, zero)) (nth (Nat.min a b) points (zero, zero)).

Lemma euclid_ok points : exists M, euclidean_distance_matrix zero inf add sub square root points = Ret M /\ squared (length points) M /\
  forall a b, (a < length points)%nat -> (b < length points)%nat -> entry M a b = wanted points a b.
Proof.
  set (n := length points). unfold euclidean_distance_matrix. fold n.
  match goal with |- exists M, foldM ?f ?l ?s = _ /\ _ => pose proof (foldM_inv f (fun pre M => squared n M /\
    forall a b, (a < length pre)%nat -> (b < length pre)%nat -> entry M a b = wanted points a b) l s) as FI end.
  destruct FI as (M & E & Q & W).
  - split; [|cbn; lia]. split; [apply repeat_length|]. intros i Hi. rewrite (nth_indep _ [] (repeat zero n)) by (rewrite repeat_length; exact Hi). rewrite nth_repeat. apply repeat_length.
  - intros pre x post M Ep (Q & W). assert (Hx : x = Z.of_nat (length pre) /\ (length pre < n)%nat).
    { assert (Hl : (length pre < length (zrange 0 (Z.of_nat n)))%nat) by (rewrite Ep, app_length; cbn; lia). rewrite zrange_length in Hl. split; [|lia].
      pose proof (zrange_nth 0 (Z.of_nat n) (length pre) 0) as Z. rewrite Ep, nth_middle in Z. rewrite Z by lia. lia. }
    destruct Hx as (-> & Hp). set (i := length pre) in *. assert (Wi : length (pre ++ [Z.of_nat i]) = S i) by (rewrite app_length; cbn; lia).
    destruct (set_entry_ok n M i i inf Q Hp Hp) as (M1 & E1 & Q1 & W1). rewrite E1. cbn [bind]. rewrite (pyget_nth points _ (zero, zero)) by lia. cbn [bind]. rewrite Nat2Z.id.
    destruct (nth i points (zero, zero)) as [x1 y1] eqn:Pe. set (p := (x1, y1)).
    match goal with |- exists s', foldM ?f ?l ?s = _ /\ _ => pose proof (foldM_inv f (fun pre' M' => squared n M' /\
      (forall a b, (a < i)%nat -> (b < i)%nat -> entry M' a b = wanted points a b) /\ entry M' i i = inf /\
      forall a, (a < length pre')%nat -> entry M' i a = wanted points i a /\ entry M' a i = wanted points a i) l s) as FI end.
    destruct FI as (M2 & E2 & Q2 & W2 & D2 & C2).
    + split; [exact Q1|]. split; [|split; [|cbn; lia]].
      * intros a b Ha Hb. rewrite W1 by lia. destruct (Nat.eqb_spec a i); [lia|]. apply W; assumption.
      * rewrite W1 by lia. rewrite !Nat.eqb_refl. reflexivity.
    + intros pre' y post' M' Ep' (Q' & W' & D' & C'). assert (Hy : y = Z.of_nat (length pre') /\ (length pre' < i)%nat).
      { assert (Hl : (length pre' < length (zrange 0 (Z.of_nat i)))%nat) by (rewrite Ep', app_length; cbn; lia). rewrite zrange_length in Hl. split; [|lia].
        pose proof (zrange_nth 0 (Z.of_nat i) (length pre') 0) as Z. rewrite Ep', nth_middle in Z. rewrite Z by lia. lia. }
      destruct Hy as (-> & Hj). set (j := length pre') in *. rewrite (pyget_nth points _ (zero, zero)) by lia. cbn [bind]. rewrite Nat2Z.id. destruct (nth j points (zero, zero)) as [x2 y2] eqn:Pj. cbv zeta.
      change (root (add (square (sub x2 x1)) (square (sub y2 y1)))) with (distance p (x2, y2)).
      destruct (set_entry_ok n M' i j (distance p (x2, y2)) Q' ltac:(lia) ltac:(lia)) as (M3 & E3 & Q3 & W3). rewrite E3. cbn [bind].
      destruct (set_entry_ok n M3 j i (distance p (x2, y2)) Q3 ltac:(lia) ltac:(lia)) as (M4 & E4 & Q4 & W4). rewrite E4.
      exists M4. split; [reflexivity|]. split; [exact Q4|]. split; [|split].
      * intros a b Ha Hb. rewrite W4, W3 by lia. destruct (Nat.eqb_spec b i); [lia|]. rewrite andb_false_r. destruct (Nat.eqb_spec a i); [lia|]. apply W'; assumption.
      * rewrite W4, W3 by lia. destruct (Nat.eqb_spec i j); [lia|]. cbn [andb]. rewrite andb_false_r. exact D'.
      * intros a Ha. rewrite app_length in Ha. cbn [length] in Ha. fold j in Ha.
        assert (X : wanted points i j = distance p (x2, y2) /\ wanted points j i = distance p (x2, y2)).
        { unfold wanted. destruct (Nat.eqb_spec i j); [lia|]. destruct (Nat.eqb_spec j i); [lia|]. rewrite Nat.max_l, Nat.min_r, Nat.max_r, Nat.min_l by lia. rewrite Pe, Pj. auto. }
        destruct X as (X1 & X2). rewrite !W4, !W3 by lia. rewrite !Nat.eqb_refl. destruct (Nat.eqb_spec i j); [lia|]. destruct (Nat.eqb_spec a i); [lia|].
        destruct (Nat.eqb_spec a j) as [->|]; cbn [andb].
        -- rewrite X1, X2. auto.
        -- destruct (Nat.eqb_spec i a); [lia|]. rewrite ?andb_false_r. apply C'. lia.
    + exists M2. split; [exact E2|]. split; [exact Q2|]. rewrite Wi. rewrite zrange_length in C2. intros a b Ha Hb.
      destruct (Nat.eq_dec a i) as [->|], (Nat.eq_dec b i) as [->|].
      * rewrite D2. unfold wanted. rewrite Nat.eqb_refl. reflexivity.
      * apply C2. lia.
      * apply C2. lia.
      * apply W2; lia.
  - exists M. split; [exact E|]. split; [exact Q|]. rewrite zrange_length in W. intros a b Ha Hb. apply W; lia.
Qed.
End Euclid.
