(** * Algorithm X: covering and uncovering columns *)
From Coq Require Import ZArith List Bool Lia Permutation.
From Verif Require Import Base Py Dict AlgX_Model AlgX_Spec.
Import ListNotations.
Open Scope Z_scope.

Lemma zmem_In x s : zmem x s = true <-> In x s.
Proof. unfold zmem. rewrite existsb_exists. split; [intros (y & H & E); apply Z.eqb_eq in E; congruence|intros H; exists x; split; [exact H|apply Z.eqb_refl]]. Qed.

Lemma sadd_In s x y : In y (sadd s x) <-> In y s \/ y = x.
Proof.
  unfold sadd. destruct (zmem x s) eqn:E; [apply zmem_In in E; split; [tauto|intros [H| ->]; assumption]|].
  rewrite in_app_iff. cbn. intuition.
Qed.

Lemma sadd_NoDup s x : NoDup s -> NoDup (sadd s x).
Proof.
  intros N. unfold sadd. destruct (zmem x s) eqn:E; [exact N|].
  apply (Permutation_NoDup (l := x :: s)); [apply Permutation_cons_append|]. constructor; [|exact N]. intros H%zmem_In. congruence.
Qed.

Section Cols.
  Context (sets : list (list Z)) (ord : list Z -> list Z -> list Z).
  Hypothesis Hord : forall p s, Permutation (ord p s) s.
  Hypothesis Hsets : forall i, In i sets -> NoDup i.

  Notation n := (Z.of_nat (length sets)).
  Notation Y := (set_at sets).

  Lemma row_get i : 0 <= i < n -> pyget sets i = Ret (Y i).
  Proof using. intros H. unfold set_at. apply pyget_nth; exact H. Qed.

  Lemma Y_NoDup i : NoDup (Y i).
  Proof using Hsets.
    unfold set_at. destruct (Nat.lt_ge_cases (Z.to_nat i) (length sets)) as [L|L]; [apply Hsets, nth_In, L|rewrite nth_overflow by exact L; constructor].
  Qed.

  (** Row [i] is listed in column [k]. *)
  Definition has (X : columns) (k i : Z) : Prop := exists t, dget X k = Some t /\ In i t.
  Definition wf (X : columns) : Prop := NoDup (dkeys X) /\ forall k t, dget X k = Some t -> NoDup t.

  Lemma has_key X k i : has X k i -> In k (dkeys X).
  Proof using. intros (t & E & _). apply dget_key. eauto. Qed.

  Lemma has_get X k t i : dget X k = Some t -> has X k i <-> In i t.
  Proof using. intros E. unfold has. rewrite E. split; [intros (t' & [= ->] & H); exact H|eauto]. Qed.

  Lemma has_dset X k t k' i : has (dset X k t) k' i <-> (k' = k /\ In i t) \/ (k' <> k /\ has X k' i).
  Proof using.
    unfold has. rewrite dget_dset. destruct (Z.eqb_spec k k') as [<-|N].
    - split; [intros (t' & [= ->] & H); left; auto|intros [[_ H]|[H _]]; [eauto|congruence]].
    - split; [intros H; right; split; [congruence|exact H]|intros [[H _]|[_ H]]; [congruence|exact H]].
  Qed.

  Lemma dset_wf X k t : wf X -> NoDup t -> wf (dset X k t).
  Proof using.
    intros [N H] Nt. split; [apply dset_NoDup, N|]. intros k' t'. rewrite dget_dset. destruct (k =? k'); [intros [= <-]; exact Nt|apply H].
  Qed.

  Lemma dset_keys (X : columns) k t t0 : dget X k = Some t0 -> dkeys (dset X k t) = dkeys X.
  Proof using. intros E. rewrite dkeys_dset. unfold dmem. rewrite E. reflexivity. Qed.

  Lemma remove_loop j i y : forall X, wf X -> NoDup y -> (forall k, In k y -> k <> j -> has X k i) ->
    exists X', foldM (fun X k => if k =? j then Ret X else do t <- dgetM X k; do t <- sremove t i; Ret (dset X k t)) y X = Ret X' /\ wf X' /\ dkeys X' = dkeys X /\
      forall k i', has X' k i' <-> has X k i' /\ ~ (i' = i /\ In k y /\ k <> j).
  Proof using.
    induction y as [|k0 y IH]; intros X W N H.
    - exists X. split; [reflexivity|]. split; [exact W|]. split; [reflexivity|]. intros k i'. cbn. tauto.
    - inversion N as [|? ? N1 N2]; subst. cbn [foldM]. destruct (Z.eqb_spec k0 j) as [->|Nj].
      + cbn [bind]. destruct (IH X W N2) as (X' & E & W' & K' & H'); [intros k Hk; apply H; right; exact Hk|]. exists X'. split; [exact E|]. split; [exact W'|]. split; [exact K'|].
        intros k i'. rewrite H'. cbn [In]. intuition congruence.
      + destruct (H k0 (or_introl eq_refl) Nj) as (t & Et & It). unfold dgetM at 1. rewrite Et. cbn [bind]. unfold sremove. rewrite (proj2 (zmem_In i t) It). cbn [bind].
        set (t' := filter (fun y0 => negb (y0 =? i)) t). assert (Ht' : forall x, In x t' <-> In x t /\ x <> i). { intros x. unfold t'. rewrite filter_In, negb_true_iff, Z.eqb_neq. reflexivity. }
        destruct (IH (dset X k0 t')) as (X' & E & W' & K' & H').
        { apply dset_wf; [exact W|]. apply NoDup_filter. apply (proj2 W k0 t Et). }
        { exact N2. }
        { intros k Hk Nk. apply has_dset. right. split; [congruence|]. apply H; [right; exact Hk|exact Nk]. }
        exists X'. split; [exact E|]. split; [exact W'|]. split; [rewrite K'; apply (dset_keys X k0 t' t Et)|].
        intros k i'. rewrite H', has_dset. cbn [In]. destruct (Z.eq_dec k k0) as [->|Nk].
        * rewrite Ht'. rewrite (has_get X k0 t i' Et). intuition congruence.
        * intuition congruence.
  Qed.

  Lemma remove_rows j s : forall X, wf X -> NoDup s -> (forall i, In i s -> 0 <= i < n /\ forall k, In k (Y i) -> k <> j -> has X k i) ->
    exists X', foldM (remove_row sets j) s X = Ret X' /\ wf X' /\ dkeys X' = dkeys X /\
      forall k i, has X' k i <-> has X k i /\ ~ (In i s /\ In k (Y i) /\ k <> j).
  Proof using Hsets.
    induction s as [|i s IH]; intros X W N H.
    - exists X. split; [reflexivity|]. split; [exact W|]. split; [reflexivity|]. intros k i'. cbn. tauto.
    - inversion N as [|? ? N1 N2]; subst. cbn [foldM]. destruct (H i (or_introl eq_refl)) as [Hi Hk]. unfold remove_row at 1. rewrite (row_get i Hi). cbn [bind].
      destruct (remove_loop j i (Y i) X W (Y_NoDup i) Hk) as (X1 & E1 & W1 & K1 & H1). rewrite E1. cbn [bind].
      destruct (IH X1 W1 N2) as (X' & E & W' & K' & H').
      { intros i' Hi'. destruct (H i' (or_intror Hi')) as [R1 R2]. split; [exact R1|]. intros k Ik Nk. apply H1. split; [apply R2; assumption|]. intros (-> & _). contradiction. }
      exists X'. split; [exact E|]. split; [exact W'|]. split; [congruence|]. intros k i'. rewrite H', H1. cbn [In]. destruct (Z.eq_dec i i') as [<-|]; intuition congruence.
  Qed.

  Lemma add_loop j i y : forall X, wf X -> (forall k, In k y -> k <> j -> In k (dkeys X)) ->
    exists X', foldM (fun X k => if k =? j then Ret X else do t <- dgetM X k; Ret (dset X k (sadd t i))) y X = Ret X' /\ wf X' /\ dkeys X' = dkeys X /\
      forall k i', has X' k i' <-> has X k i' \/ (i' = i /\ In k y /\ k <> j).
  Proof using.
    induction y as [|k0 y IH]; intros X W H.
    - exists X. split; [reflexivity|]. split; [exact W|]. split; [reflexivity|]. intros k i'. cbn. tauto.
    - cbn [foldM]. destruct (Z.eqb_spec k0 j) as [->|Nj].
      + cbn [bind]. destruct (IH X W) as (X' & E & W' & K' & H'); [intros k Hk; apply H; right; exact Hk|]. exists X'. split; [exact E|]. split; [exact W'|]. split; [exact K'|].
        intros k i'. rewrite H'. cbn [In]. intuition congruence.
      + destruct (proj1 (dget_key X k0) (H k0 (or_introl eq_refl) Nj)) as (t & Et). unfold dgetM at 1. rewrite Et. cbn [bind].
        pose proof (dset_keys X k0 (sadd t i) t Et) as Ek.
        destruct (IH (dset X k0 (sadd t i))) as (X' & E & W' & K' & H').
        { apply dset_wf; [exact W|]. apply sadd_NoDup. apply (proj2 W k0 t Et). }
        { intros k Hk Nk. rewrite Ek. apply H; [right; exact Hk|exact Nk]. }
        exists X'. split; [exact E|]. split; [exact W'|]. split; [rewrite K'; exact Ek|].
        intros k i'. rewrite H', has_dset, sadd_In. cbn [In]. destruct (Z.eq_dec k k0) as [->|Nk].
        * rewrite (has_get X k0 t i' Et). intuition congruence.
        * intuition congruence.
  Qed.

  Lemma add_rows j s : forall X, wf X -> (forall i, In i s -> 0 <= i < n /\ forall k, In k (Y i) -> k <> j -> In k (dkeys X)) ->
    exists X', foldM (add_row sets j) s X = Ret X' /\ wf X' /\ dkeys X' = dkeys X /\
      forall k i, has X' k i <-> has X k i \/ (In i s /\ In k (Y i) /\ k <> j).
  Proof using.
    induction s as [|i s IH]; intros X W H.
    - exists X. split; [reflexivity|]. split; [exact W|]. split; [reflexivity|]. intros k i'. cbn. tauto.
    - cbn [foldM]. destruct (H i (or_introl eq_refl)) as [Hi Hk]. unfold add_row at 1. rewrite (row_get i Hi). cbn [bind].
      destruct (add_loop j i (Y i) X W Hk) as (X1 & E1 & W1 & K1 & H1). rewrite E1. cbn [bind].
      destruct (IH X1 W1) as (X' & E & W' & K' & H').
      { intros i' Hi'. rewrite K1. apply H. right. exact Hi'. }
      exists X'. split; [exact E|]. split; [exact W'|]. split; [congruence|]. intros k i'. rewrite H', H1. cbn [In]. destruct (Z.eq_dec i i') as [<-|]; intuition congruence.
  Qed.

  (** The columns list exactly the rows that fit into the remaining columns. *)
  Definition Inv (X : columns) : Prop := wf X /\
    forall k i, has X k i <-> In k (dkeys X) /\ 0 <= i < n /\ In k (Y i) /\ incl (Y i) (dkeys X).

  Lemma ord_NoDup p s : NoDup s -> NoDup (ord p s).
  Proof using Hord. apply Permutation_NoDup. symmetry. apply Hord. Qed.
  Lemma ord_In p s x : In x (ord p s) <-> In x s.
  Proof using Hord. split; apply Permutation_in; [|symmetry]; apply Hord. Qed.

  Lemma ddel_keys (X : columns) j k : NoDup (dkeys X) -> In k (dkeys (ddel X j)) <-> In k (dkeys X) /\ k <> j.
  Proof using.
    intros N. rewrite !dget_key. rewrite (dget_ddel X j k N). destruct (Z.eqb_spec j k) as [->|E].
    - split; [intros (v & [=])|intros [_ H]; congruence].
    - split; [intros H; split; [exact H|congruence]|tauto].
  Qed.

  Lemma ddel_length (X : columns) j : In j (dkeys X) -> S (length (ddel X j)) = length X.
  Proof using.
    unfold dkeys. induction X as [|[a w] X IH]; cbn [map fst In ddel]; [tauto|]. destruct (Z.eqb_spec a j); [reflexivity|]. intros [H|H]; [congruence|]. cbn [length]. rewrite IH by exact H. reflexivity.
  Qed.

  Lemma cover_col_ok p cols X j : Inv X -> In j (dkeys X) ->
    exists s X', cover_col sets ord p (cols, X) j = Ret (s :: cols, X') /\ Inv X' /\ (forall k, In k (dkeys X') <-> In k (dkeys X) /\ k <> j) /\ S (length X') = length X /\
      NoDup s /\ forall i, In i s <-> 0 <= i < n /\ In j (Y i) /\ incl (Y i) (dkeys X).
  Proof using Hord Hsets.
    intros [W H] Hj. destruct (proj1 (dget_key X j) Hj) as (s & Es). cbn [cover_col]. unfold dgetM at 1. rewrite Es. cbn [bind].
    assert (Ns : NoDup s) by (apply (proj2 W j s Es)). assert (Is : forall i, In i s <-> 0 <= i < n /\ In j (Y i) /\ incl (Y i) (dkeys X)). { intros i. rewrite <- (has_get X j s i Es), H. tauto. }
    destruct (remove_rows j (ord p s) X W (ord_NoDup p s Ns)) as (X1 & E1 & W1 & K1 & H1).
    { intros i Hi%ord_In. apply Is in Hi as (R & Ij & Sub). split; [exact R|]. intros k Hk Nk. apply H. split; [apply Sub, Hk|]. split; [exact R|]. split; assumption. }
    rewrite E1. cbn [bind]. assert (Hj1 : In j (dkeys X1)) by (rewrite K1; exact Hj). destruct (proj1 (dget_key X1 j) Hj1) as (s1 & Es1).
    assert (Is1 : forall i, In i s1 <-> In i s). { intros i. rewrite <- (has_get X1 j s1 i Es1), <- (has_get X j s i Es), H1. tauto. }
    unfold dgetM at 1. rewrite Es1. cbn [bind]. exists s1, (ddel X1 j). split; [reflexivity|].
    assert (Kd : forall k, In k (dkeys (ddel X1 j)) <-> In k (dkeys X) /\ k <> j). { intros k. rewrite (ddel_keys X1 j k (proj1 W1)), K1. reflexivity. }
    split; [|split; [exact Kd|split; [|split]]].
    - split.
      + split; [apply ddel_NoDup, W1|]. intros k t. rewrite (dget_ddel X1 j k (proj1 W1)). destruct (j =? k); [discriminate|apply (proj2 W1)].
      + intros k i. assert (Hd : has (ddel X1 j) k i <-> k <> j /\ has X1 k i). { unfold has. rewrite (dget_ddel X1 j k (proj1 W1)). destruct (Z.eqb_spec j k) as [->|E]; [split; [intros (t & [=] & _)|intros [A _]; congruence]|split; [intros A; split; [congruence|exact A]|tauto]]. }
        rewrite Hd, H1, H, Kd, ord_In, Is. assert (Q : incl (Y i) (dkeys (ddel X1 j)) <-> incl (Y i) (dkeys X) /\ ~ In j (Y i)).
        { unfold incl. split; [intros A; split; [intros a Ha; apply A, Kd in Ha; apply Ha|intros Ij; apply A, Kd in Ij; destruct Ij; congruence]|intros [A B] a Ha; apply Kd; split; [apply A, Ha|congruence]]. }
        rewrite Q. destruct (in_dec Z.eq_dec j (Y i)) as [I|I]; tauto.
    - rewrite (ddel_length X1 j Hj1), <- (map_length fst X1), <- (map_length fst X). unfold dkeys in K1. rewrite K1. reflexivity.
    - apply (proj2 W1 j s1 Es1).
    - intros i. rewrite Is1. apply Is.
  Qed.

  Lemma uncover_col_ok p cols s X j : Inv X -> ~ In j (dkeys X) -> NoDup s -> (forall i, In i s <-> 0 <= i < n /\ In j (Y i) /\ incl (Y i) (j :: dkeys X)) ->
    exists X', uncover_col sets ord p (s :: cols, X) j = Ret (cols, X') /\ Inv X' /\ (forall k, In k (dkeys X') <-> In k (dkeys X) \/ k = j).
  Proof using Hord.
    intros [W H] Hj Ns Is. cbn [uncover_col]. assert (K0 : forall k, In k (dkeys (dset X j s)) <-> In k (dkeys X) \/ k = j) by (intros k; apply dkeys_dset_In).
    destruct (add_rows j (ord p s) (dset X j s)) as (X1 & E1 & W1 & K1 & H1).
    { apply dset_wf; assumption. }
    { intros i Hi%ord_In. apply Is in Hi as (R & Ij & Sub). split; [exact R|]. intros k Hk Nk. apply K0. destruct (Sub k Hk); [congruence|left; assumption]. }
    rewrite E1. cbn [bind]. exists X1. split; [reflexivity|]. rewrite K1. split; [|exact K0]. split; [exact W1|].
    intros k i. rewrite H1, has_dset, ord_In, Is, K1, K0, H.
    assert (Q : incl (Y i) (dkeys (dset X j s)) <-> incl (Y i) (j :: dkeys X)). { unfold incl. split; intros A a Ha; apply A in Ha; [apply K0 in Ha|apply K0]; cbn in *; intuition congruence. }
    rewrite Q. assert (Q2 : ~ In j (Y i) -> incl (Y i) (j :: dkeys X) -> incl (Y i) (dkeys X)). { intros A B a Ha. destruct (B a Ha); [congruence|assumption]. }
    assert (Q3 : incl (Y i) (dkeys X) -> incl (Y i) (j :: dkeys X)). { intros A. apply incl_tl. exact A. }
    assert (Rj : j = j) by reflexivity. destruct (Z.eq_dec k j) as [->|Nk]; destruct (in_dec Z.eq_dec j (Y i)) as [Ij|Ij]; try tauto.
    - assert (Q4 : ~ incl (Y i) (dkeys X)) by (intros A; apply Hj, A, Ij). assert (Q5 : In k (Y i) -> incl (Y i) (j :: dkeys X) -> In k (dkeys X)) by (intros A B; destruct (B k A); [congruence|assumption]). tauto.
  Qed.

  Lemma cover_all p y : forall cols X, Inv X -> NoDup y -> incl y (dkeys X) ->
    exists cols' X', foldM (cover_col sets ord p) y (cols, X) = Ret (cols', X') /\ Inv X' /\ (forall k, In k (dkeys X') <-> In k (dkeys X) /\ ~ In k y) /\ (length X' + length y = length X)%nat /\
      forall X2, Inv X2 -> (forall k, In k (dkeys X2) <-> In k (dkeys X')) ->
        exists X3, foldM (uncover_col sets ord p) (rev y) (cols', X2) = Ret (cols, X3) /\ Inv X3 /\ (forall k, In k (dkeys X3) <-> In k (dkeys X)).
  Proof using Hord Hsets.
    induction y as [|j y IH]; intros cols X HI N Sub.
    - exists cols, X. split; [reflexivity|]. split; [exact HI|]. split; [intros k; cbn; tauto|]. split; [cbn; lia|]. intros X2 I2 K2. exists X2. split; [reflexivity|]. split; [exact I2|exact K2].
    - inversion N as [|? ? N1 N2]; subst. destruct (cover_col_ok p cols X j HI) as (s & X1 & E1 & I1 & K1 & L1 & Ns & Is); [apply Sub; left; reflexivity|].
      cbn [foldM]. rewrite E1. cbn [bind]. destruct (IH (s :: cols) X1 I1 N2) as (cols' & X' & E' & I' & K' & L' & U').
      { intros k Hk. apply K1. split; [apply Sub; right; exact Hk|intros ->; contradiction]. }
      exists cols', X'. split; [exact E'|]. split; [exact I'|]. split; [intros k; rewrite K', K1; cbn [In]; intuition congruence|]. split; [cbn [length]; lia|].
      intros X2 I2 K2. destruct (U' X2 I2 K2) as (X3 & E3 & I3 & K3). cbn [rev]. rewrite foldM_app, E3. cbn [bind foldM].
      destruct (uncover_col_ok p cols s X3 j I3) as (X4 & E4 & I4 & K4).
      { rewrite K3, K1. tauto. }
      { exact Ns. }
      { intros i. rewrite Is. assert (Q : incl (Y i) (dkeys X) <-> incl (Y i) (j :: dkeys X3)); [|tauto]. unfold incl. split; intros A a Ha; apply A in Ha.
        - destruct (Z.eq_dec a j) as [->|]; [left; reflexivity|right; apply K3, K1; split; assumption].
        - destruct Ha as [<-|Ha]; [apply Sub; left; reflexivity|apply K3, K1 in Ha; apply Ha]. }
      rewrite E4. cbn [bind]. exists X4. split; [reflexivity|]. split; [exact I4|]. intros k. rewrite K4, K3, K1. split; [intros [[A _]| ->]; [exact A|apply Sub; left; reflexivity]|intros A; destruct (Z.eq_dec k j); tauto].
  Qed.
End Cols.
