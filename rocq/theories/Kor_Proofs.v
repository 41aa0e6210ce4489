(** * Proofs about [korman]: lists, colours, relabelling *)
From Coq Require Import ZArith List Lia Bool Permutation.
From Verif Require Import Base Py Dict Lists Lists2 Graph_Model Graph_Spec Graph_Proofs Trav_Model Color_Model Color_Spec Color_Proofs Kor_Model.
Import ListNotations.
Open Scope Z_scope.

(** ** General facts *)
Lemma py_max_ok l : l <> [] -> exists m, py_max l = Ret m /\ In m l /\ forall x, In x l -> x <= m.
Proof.
  destruct l as [|x xs]; [congruence|]. intros _. cbn [py_max]. exists (fold_left Z.max xs x). split; [reflexivity|].
  revert x. induction xs as [|y ys IH]; intros x; cbn [fold_left].
  - split; [left; reflexivity|]. intros z [<-|[]]. lia.
  - destruct (IH (Z.max x y)) as (A & B). split.
    + destruct A as [A|A]; [|right; right; exact A]. rewrite <- A. destruct (Z.max_spec x y) as [(_ & ->)|(_ & ->)]; [right; left|left]; reflexivity.
    + intros z [->|[->|Hz]].
      * specialize (B (Z.max z y) (or_introl eq_refl)). lia.
      * specialize (B (Z.max x z) (or_introl eq_refl)). lia.
      * apply B. right. exact Hz.
Qed.

Lemma set_add_In l x y : In y (set_add l x) <-> In y l \/ y = x.
Proof.
  unfold set_add, mem. destruct (existsb (Z.eqb x) l) eqn:E.
  - apply existsb_exists in E as (z & Hz & Ez). apply Z.eqb_eq in Ez. subst z. split; [tauto|]. intros [H| ->]; assumption.
  - rewrite in_app_iff. cbn [In]. split; [intros [H|[->|[]]]|intros [H| ->]]; auto.
Qed.

Lemma set_add_NoDup l x : NoDup l -> NoDup (set_add l x).
Proof.
  intros N. unfold set_add, mem. destruct (existsb (Z.eqb x) l) eqn:E; [exact N|].
  apply NoDup_app_intro; [exact N|constructor; [intros []|constructor]|]. intros y Hy [->|[]].
  assert (existsb (Z.eqb y) l = true) by (apply existsb_exists; exists y; split; [exact Hy|apply Z.eqb_refl]). congruence.
Qed.

Lemma mem_In x l : mem x l = true <-> In x l.
Proof.
  unfold mem. rewrite existsb_exists. split; [intros (z & Hz & E); apply Z.eqb_eq in E; subst; exact Hz|].
  intros H. exists x. split; [exact H|apply Z.eqb_refl].
Qed.

(** The first free number of a range. *)
Lemma find_free adj : forall (d : nat) a, (exists y, a <= y < a + Z.of_nat d /\ ~ In y adj) ->
  exists c, find (fun i => negb (mem i adj)) (zrange a (a + Z.of_nat d)) = Some c /\ a <= c < a + Z.of_nat d /\ ~ In c adj /\ forall x, a <= x < c -> In x adj.
Proof.
  induction d as [|d IH]; intros a (y & Hy & Ny); [lia|]. rewrite zrange_cons by lia. cbn [find].
  destruct (mem a adj) eqn:E; cbn [negb].
  - apply mem_In in E. replace (a + Z.of_nat (S d)) with (a + 1 + Z.of_nat d) by lia.
    destruct (IH (a + 1)) as (c & -> & Hc & Nc & L).
    { exists y. split; [|exact Ny]. assert (y <> a) by (intros ->; contradiction). lia. }
    exists c. repeat split; try assumption; try lia. intros x Hx. destruct (Z.eq_dec x a) as [->|]; [exact E|]. apply L. lia.
  - exists a. repeat split; try lia. intros H. apply mem_In in H. congruence.
Qed.

Definition cf (color : list (Z * Z)) (u : Z) : Z := match dget color u with Some c => c | None => 0 end.

Lemma cf_dset color s c u : cf (dset color s c) u = if s =? u then c else cf color u.
Proof. unfold cf. rewrite dget_dset. destruct (s =? u); reflexivity. Qed.

Lemma firstn_In {A} (x : A) : forall j l, In x (firstn j l) -> In x l.
Proof. intros j l H. rewrite <- (firstn_skipn j l). apply in_app_iff. left. exact H. Qed.

Lemma firstn_nth_In (P : list Z) : forall i j, (i < j)%nat -> (i < length P)%nat -> In (nth i P 0) (firstn j P).
Proof.
  induction P as [|x P IH]; intros i j H L; [cbn in L; lia|]. destruct j as [|j]; [lia|]. cbn [firstn].
  destruct i as [|i]; [left; reflexivity|]. right. cbn [nth]. apply IH; cbn in L; lia.
Qed.

(** ** Colourings with numbers below a bound *)
Section Swap.
  Context (g : graph).

  Definition fine (B : Z) (f : Z -> Z) : Prop :=
    (forall v, vertex g v -> 1 <= f v < B) /\ (forall u v, edge g u v -> f u <> f v).

  Definition swap (a b x : Z) : Z := if x =? a then b else if x =? b then a else x.

  Lemma swap_fine B f a b : 1 <= a < B -> 1 <= b < B -> fine B f -> fine B (fun v => swap a b (f v)).
  Proof using Type.
    intros Ha Hb (F1 & F2). split.
    - intros v Hv. specialize (F1 v Hv). unfold swap. destruct (f v =? a); [exact Hb|]. destruct (f v =? b); [exact Ha|exact F1].
    - intros u v E H. apply (F2 u v E). revert H. unfold swap.
      destruct (Z.eqb_spec (f u) a); destruct (Z.eqb_spec (f u) b); destruct (Z.eqb_spec (f v) a); destruct (Z.eqb_spec (f v) b); lia.
  Qed.

  (** A clique can be given the numbers 1, 2, ... *)
  Lemma label_clique B : forall (C : list Z), NoDup C -> (forall u, In u C -> vertex g u) -> (forall u v, In u C -> In v C -> u <> v -> edge g u v) ->
    forall f, fine B f -> exists f', fine B f' /\ forall i, (i < length C)%nat -> f' (nth i C 0) = Z.of_nat i + 1.
  Proof using Type.
    intros C0 N0 V0 E0 f0 F0.
    assert (forall m, (m <= length C0)%nat -> exists f', fine B f' /\ forall i, (i < m)%nat -> f' (nth i C0 0) = Z.of_nat i + 1) as H.
    { induction m as [|m IH]; intros Hm; [exists f0; split; [exact F0|lia]|].
      destruct IH as (f & F & L); [lia|]. set (x := nth m C0 0).
      assert (Hx : In x C0) by (apply nth_In; lia).
      assert (Fx := proj1 F x (V0 x Hx)).
      assert (D : forall i, (i < m)%nat -> f x <> Z.of_nat i + 1).
      { intros i Hi. rewrite <- (L i Hi). apply (proj2 F). apply E0; [exact Hx|apply nth_In; lia|].
        intros E. assert (Q := proj1 (NoDup_nth C0 0) N0 m i ltac:(lia) ltac:(lia) E). lia. }
      assert (G : Z.of_nat m + 1 <= f x).
      { destruct (Z_lt_le_dec (f x) (Z.of_nat m + 1)) as [H|H]; [|exact H]. exfalso. apply (D (Z.to_nat (f x - 1))); lia. }
      exists (fun v => swap (f x) (Z.of_nat m + 1) (f v)). split; [apply swap_fine; [exact Fx|lia|exact F]|].
      intros i Hi. destruct (Nat.eq_dec i m) as [->|].
      - fold x. unfold swap. rewrite Z.eqb_refl. reflexivity.
      - rewrite (L i) by lia. unfold swap. destruct (Z.eqb_spec (Z.of_nat i + 1) (f x)) as [E|_]; [exfalso; apply (D i); lia|].
        destruct (Z.eqb_spec (Z.of_nat i + 1) (Z.of_nat m + 1)); [lia|reflexivity]. }
    apply H. lia.
  Qed.

  Lemma clique_bound B C f : NoDup C -> (forall u, In u C -> vertex g u) -> (forall u v, In u C -> In v C -> u <> v -> edge g u v) ->
    fine B f -> C <> [] -> Z.of_nat (length C) < B.
  Proof using Type.
    intros N V E F Ne. destruct (label_clique B C N V E f F) as (f' & F' & L).
    assert (length C <> 0)%nat by (destruct C; cbn; congruence).
    specialize (L (length C - 1)%nat ltac:(lia)). assert (Q := proj1 F' (nth (length C - 1) C 0) ltac:(apply V, nth_In; lia)). lia.
  Qed.
End Swap.

(** ** Numbers with the colours as digits *)
Section Digits.
  Context (b : Z) (b1 : 1 < b).

  Definition val (color : list (Z * Z)) (P : list Z) : Z := fold_left (fun a u => a * b + cf color u) P 0.

  Lemma val_snoc color P s : val color (P ++ [s]) = val color P * b + cf color s.
  Proof using Type. unfold val. rewrite fold_left_app. reflexivity. Qed.

  Lemma val_ext color color' P : (forall u, In u P -> cf color u = cf color' u) -> val color P = val color' P.
  Proof using Type.
    induction P as [|s P IH] using rev_ind; intros H; [reflexivity|]. rewrite !val_snoc, IH, (H s); [reflexivity|apply in_app_iff; right; left; reflexivity|].
    intros u Hu. apply H, in_app_iff. left. exact Hu.
  Qed.

  Lemma val_bound color P : (forall u, In u P -> 0 <= cf color u < b) -> 0 <= val color P < b ^ Z.of_nat (length P).
  Proof using All.
    induction P as [|s P IH] using rev_ind; intros H; [cbn; lia|]. rewrite val_snoc, app_length. cbn [length].
    replace (Z.of_nat (length P + 1)) with (Z.succ (Z.of_nat (length P))) by lia. rewrite Z.pow_succ_r by lia.
    assert (Hs := H s ltac:(apply in_app_iff; right; left; reflexivity)).
    assert (IH' := IH ltac:(intros u Hu; apply H, in_app_iff; left; exact Hu)). nia.
  Qed.

  Lemma val_app color P Q : val color (P ++ Q) = val color P * b ^ Z.of_nat (length Q) + val color Q.
  Proof using All.
    induction Q as [|s Q IH] using rev_ind; [rewrite app_nil_r; cbn; lia|]. rewrite app_assoc, !val_snoc, IH, app_length. cbn [length].
    replace (Z.of_nat (length Q + 1)) with (Z.succ (Z.of_nat (length Q))) by lia. rewrite Z.pow_succ_r by lia. ring.
  Qed.
End Digits.
