(** * The Havel-Hakimi recursion *)
From Coq Require Import ZArith List Lia Bool Permutation Sorting.Sorted.
From Verif Require Import Base Py Lists Degree_Model Degree_Spec.
Import ListNotations.
Open Scope Z_scope.

Definition b2z (b : bool) : Z := if b then 1 else 0.

Lemma hm_0 r : how_many 0 r = 0. Proof. reflexivity. Qed.
Lemma hm_S n r : how_many (S n) r = how_many n r + b2z (r n).
Proof. unfold how_many. rewrite seq_S, filter_app, app_length. cbn [filter plus]. destruct (r n); cbn [length b2z]; lia. Qed.

Lemma hm_ext n r r' : (forall y, (y < n)%nat -> r y = r' y) -> how_many n r = how_many n r'.
Proof. intros H. induction n as [|n IH]; [reflexivity|]. rewrite !hm_S, IH, H by (intros; try apply H; lia). reflexivity. Qed.
Lemma hm_le n r r' : (forall y, (y < n)%nat -> r y = true -> r' y = true) -> how_many n r <= how_many n r'.
Proof.
  intros H. induction n as [|n IH]; [reflexivity|]. rewrite !hm_S. assert (how_many n r <= how_many n r') by (apply IH; intros; apply H; [lia|assumption]).
  specialize (H n ltac:(lia)). destruct (r n), (r' n); cbn [b2z] in *; lia.
Qed.
Lemma hm_upd n r r' a : (a < n)%nat -> (forall y, (y < n)%nat -> y <> a -> r' y = r y) -> how_many n r' = how_many n r - b2z (r a) + b2z (r' a).
Proof.
  induction n as [|n IH]; intros Ha H; [lia|]. rewrite !hm_S. destruct (Nat.eq_dec a n) as [->|D].
  - rewrite (hm_ext n r' r) by (intros y Hy; apply H; lia). lia.
  - rewrite IH by (try lia; intros y Hy Dy; apply H; lia). rewrite (H n) by lia. lia.
Qed.
Lemma hm_range n r : 0 <= how_many n r <= Z.of_nat n.
Proof. induction n as [|n IH]; [cbn; lia|]. rewrite hm_S. destruct (r n); cbn [b2z]; lia. Qed.
Lemma hm_lt n r r' a : (a < n)%nat -> r a = false -> r' a = true -> (forall y, (y < n)%nat -> r y = true -> r' y = true) -> how_many n r < how_many n r'.
Proof.
  intros Ha E E' H. pose proof (hm_upd n r (fun y => if Nat.eqb y a then true else r y) a Ha) as U. cbn beta in U. rewrite Nat.eqb_refl, E in U. cbn [b2z] in U.
  assert (H0 : how_many n (fun y => if Nat.eqb y a then true else r y) <= how_many n r').
  { apply hm_le. intros y Hy. destruct (Nat.eqb_spec y a) as [->|D]; [intros _; exact E'|apply H, Hy]. }
  rewrite U in H0; [lia|]. intros y Hy D. destruct (Nat.eqb_spec y a); [contradiction|reflexivity].
Qed.
Lemma hm_swap n r r' a b : (a < n)%nat -> (b < n)%nat -> a <> b -> r a = true -> r b = false -> r' a = false -> r' b = true ->
  (forall y, y <> a -> y <> b -> r' y = r y) -> how_many n r' = how_many n r.
Proof.
  intros Ha Hb D Ra Rb Ra' Rb' H. set (m := fun y => if Nat.eqb y a then false else r y).
  rewrite (hm_upd n m r' b Hb), (hm_upd n r m a Ha).
  - unfold m. rewrite Nat.eqb_refl. destruct (Nat.eqb_spec b a); [congruence|]. rewrite Ra, Rb, Rb'. cbn [b2z]. lia.
  - intros y _ Dy. unfold m. destruct (Nat.eqb_spec y a); [contradiction|reflexivity].
  - intros y _ Dy. unfold m. destruct (Nat.eqb_spec y a) as [->|Dy']; [exact Ra'|apply H; assumption].
Qed.
Lemma hm_search n r : {k | (k < n)%nat /\ r k = true} + {forall k, (k < n)%nat -> r k = false}.
Proof.
  induction n as [|n [(k & Hk & E)|IH]]; [right; intros; lia|left; exists k; split; [lia|exact E]|].
  destruct (r n) eqn:E; [left; exists n; split; [lia|exact E]|right]. intros k Hk. destruct (Nat.eq_dec k n) as [->|D]; [exact E|apply IH; lia].
Qed.
(** The interval [1, d]. *)
Definition upto (d : nat) (y : nat) : bool := (1 <=? y)%nat && (y <=? d)%nat.
Lemma hm_upto n d : (d < n)%nat -> how_many n (upto d) = Z.of_nat d.
Proof.
  revert d. induction n as [|n IH]; intros d Hd; [lia|]. rewrite hm_S. destruct (Nat.eq_dec d n) as [->|D].
  - destruct n as [|n]; [reflexivity|]. rewrite (hm_ext (S n) (upto (S n)) (upto n)).
    + rewrite IH by lia. unfold upto. replace (1 <=? S n)%nat with true by (symmetry; apply Nat.leb_le; lia). rewrite Nat.leb_refl. cbn [andb b2z]. lia.
    + intros y Hy. unfold upto. f_equal. destruct (Nat.leb_spec y (S n)), (Nat.leb_spec y n); lia || reflexivity.
  - rewrite IH by lia. unfold upto. destruct (Nat.leb_spec n d); [lia|]. rewrite andb_false_r. cbn [b2z]. lia.
Qed.
Lemma hm_shift n r : how_many (S n) r = b2z (r O) + how_many n (fun y => r (S y)).
Proof. induction n as [|n IH]; [rewrite hm_S, !hm_0; lia|]. rewrite hm_S, IH, hm_S. lia. Qed.

Lemma nth_lt (l : list Z) x d : nth_error l x = Some d -> (x < length l)%nat.
Proof. intros E. apply nth_error_Some. congruence. Qed.

(** ** The order of the sequence does not matter *)
Lemma hm_perm n f r : (forall x, (x < n)%nat -> (f x < n)%nat) -> (forall x y, (x < n)%nat -> (y < n)%nat -> f x = f y -> x = y) ->
  how_many n (fun y => r (f y)) = how_many n r.
Proof.
  intros Hf Inj. unfold how_many. f_equal. assert (P : Permutation (map f (seq 0 n)) (seq 0 n)).
  { apply NoDup_Permutation_bis.
    - assert (G : forall l, NoDup l -> (forall x, In x l -> (x < n)%nat) -> NoDup (map f l)).
      { induction 1 as [|x l Nx N IH]; intros H; cbn [map]; constructor; [|apply IH; intros y Hy; apply H; right; exact Hy].
        intros I. apply in_map_iff in I as (y & E & Hy). apply Nx. rewrite (Inj x y) by (try (apply H; cbn [In]; auto); congruence). exact Hy. }
      apply G; [apply seq_NoDup|]. intros x Hx. apply in_seq in Hx. lia.
    - rewrite map_length. lia.
    - intros y Hy. apply in_map_iff in Hy as (x & <- & Hx). apply in_seq in Hx. apply in_seq. specialize (Hf x). lia. }
  assert (Q : forall l, length (filter (fun y => r (f y)) l) = length (filter r (map f l))).
  { induction l as [|x l IH]; [reflexivity|]. cbn [map filter]. destruct (r (f x)); cbn [length]; congruence. }
  rewrite Q. assert (Pf : forall l l' : list nat, Permutation l l' -> Permutation (filter r l) (filter r l')).
  { induction 1 as [|x l l' P' IH|x y l|l1 l2 l3 _ IH1 _ IH2]; cbn [filter]; [constructor|destruct (r x); [constructor|]; exact IH|destruct (r x), (r y); try reflexivity; apply perm_swap|rewrite IH1; exact IH2]. }
  apply Permutation_length, Pf, P.
Qed.

Lemma graphic_perm S S' : Permutation S S' -> graphic S -> graphic S'.
Proof.
  intros P (adj & Sy & Ir & D). pose proof (Permutation_length P) as L. apply (Permutation_nth _ _ 0) in P. destruct P as (_ & f & Bf & If & Ef).
  exists (fun x y => adj (f x) (f y)). split; [intros x y; apply Sy|]. split; [intros x; apply Ir|].
  intros x d E. pose proof (nth_lt _ _ _ E) as Lx. rewrite <- L in *. rewrite (hm_perm (length S) f (adj (f x))).
  - assert (Ed : nth_error S (f x) = Some d).
    { rewrite (nth_error_nth' S 0) by (apply Bf, Lx). f_equal. rewrite <- (Ef x Lx). apply nth_error_nth, E. }
    apply D, Ed.
  - exact Bf.
  - intros u v Hu Hv. apply If; assumption.
Qed.

(** ** The exchange *)
Definition swapped (adj : nat -> nat -> bool) (i j k : nat) (x y : nat) : bool :=
  let is a b := (Nat.eqb x a && Nat.eqb y b) || (Nat.eqb x b && Nat.eqb y a) in
  if is O j || is i k then false else if is O i || is j k then true else adj x y.

Section Exchange.
  Context (d : nat) (T : list Z) (adj : nat -> nat -> bool).
  Let n := Datatypes.S (length T).
  Hypothesis Sy : forall x y, adj x y = adj y x.
  Hypothesis Ir : forall x, adj x x = false.
  Hypothesis Dg : forall x e, nth_error (Z.of_nat d :: T) x = Some e -> e = how_many n (adj x).
  Hypothesis Srt : forall i j a b, (i <= j)%nat -> nth_error T i = Some a -> nth_error T j = Some b -> b <= a.
  Hypothesis Hd : (d <= length T)%nat.

  Lemma exchange i : (1 <= i <= d)%nat -> adj O i = false -> exists j k, (d < j < n)%nat /\ (k < n)%nat /\ adj O j = true /\ adj i k = true /\ adj j k = false /\ k <> O /\ k <> j /\ k <> i.
  Proof using Sy Ir Dg Srt Hd.
    intros Hi Ei. assert (D0 : Z.of_nat d = how_many n (adj O)) by (apply (Dg O); reflexivity).
    destruct (hm_search n (fun j => (d <? j)%nat && adj O j)) as [(j & Hj & Ej)|None].
    2:{ exfalso. assert (how_many n (adj O) < how_many n (upto d)).
      { apply (hm_lt n _ _ i); [unfold n; lia|exact Ei|unfold upto; apply andb_true_iff; split; apply Nat.leb_le; lia|].
        intros y Hy Ey. unfold upto. apply andb_true_iff. split; apply Nat.leb_le.
        - destruct y; [rewrite Ir in Ey; discriminate|lia].
        - destruct (Nat.leb_spec y d) as [L|L]; [exact L|]. specialize (None y Hy). cbv beta in None. rewrite Ey, andb_true_r in None. apply Nat.ltb_ge in None. exact None. }
      rewrite hm_upto in H by (unfold n; lia). lia. }
    apply andb_true_iff in Ej as (Lj & Ej). apply Nat.ltb_lt in Lj. exists j.
    assert (Dij : how_many n (adj j) <= how_many n (adj i)).
    { destruct (nth_error T (i - 1)) as [a|] eqn:Ea; [|apply nth_error_None in Ea; unfold n in *; lia]. destruct (nth_error T (j - 1)) as [b|] eqn:Eb; [|apply nth_error_None in Eb; unfold n in *; lia].
      rewrite <- (Dg i a), <- (Dg j b); [apply (Srt (i - 1) (j - 1) a b); [lia|exact Ea|exact Eb]| |].
      - replace j with (Datatypes.S (j - 1)) by lia. exact Eb.
      - replace i with (Datatypes.S (i - 1)) by lia. exact Ea. }
    set (ri := fun k => adj i k && negb (Nat.eqb k j)). set (rj := fun k => adj j k && negb (Nat.eqb k i)).
    destruct (hm_search n (fun k => ri k && negb (rj k))) as [(k & Hk & Ek)|None].
    - apply andb_true_iff in Ek as (E1 & E2). unfold ri in E1. apply andb_true_iff in E1 as (E1 & E3). apply negb_true_iff, Nat.eqb_neq in E3. apply negb_true_iff in E2.
      assert (Ki : k <> i) by (intros ->; rewrite Ir in E1; discriminate).
      unfold rj in E2. replace (Nat.eqb k i) with false in E2 by (symmetry; apply Nat.eqb_neq, Ki). rewrite andb_true_r in E2.
      exists k. split; [lia|]. split; [exact Hk|]. split; [exact Ej|]. split; [exact E1|]. split; [exact E2|]. split; [|split; assumption].
      intros ->. rewrite Sy in E1. congruence.
    - exfalso. assert (Lt : how_many n ri < how_many n rj).
      { apply (hm_lt n _ _ O); [unfold n; lia| | |].
        - unfold ri. rewrite Sy, Ei. reflexivity.
        - unfold rj. rewrite Sy, Ej. destruct (Nat.eqb_spec O i); [lia|reflexivity].
        - intros y Hy Ey. specialize (None y Hy). cbv beta in None. rewrite Ey in None. cbn [andb] in None. apply negb_false_iff in None. exact None. }
      rewrite (hm_upd n (adj i) ri j) in Lt; [|exact Hj|intros y _ Dy; unfold ri; rewrite (proj2 (Nat.eqb_neq y j) Dy); apply andb_true_r].
      rewrite (hm_upd n (adj j) rj i) in Lt; [|unfold n; lia|intros y _ Dy; unfold rj; rewrite (proj2 (Nat.eqb_neq y i) Dy); apply andb_true_r].
      unfold ri, rj in Lt. rewrite !Nat.eqb_refl, !andb_false_r, (Sy i j) in Lt. lia.
  Qed.
End Exchange.

Ltac eqb_cases := repeat match goal with |- context [Nat.eqb ?a ?b] => destruct (Nat.eqb_spec a b) end; cbn [andb orb]; try congruence; try lia.

Lemma swapped_sym adj i j k : (forall x y, adj x y = adj y x) -> forall x y, swapped adj i j k x y = swapped adj i j k y x.
Proof.
  intros Sy x y. unfold swapped. rewrite (Sy x y).
  replace ((Nat.eqb y 0 && Nat.eqb x j) || (Nat.eqb y j && Nat.eqb x 0)) with ((Nat.eqb x 0 && Nat.eqb y j) || (Nat.eqb x j && Nat.eqb y 0)) by (rewrite (andb_comm (Nat.eqb y 0)), (andb_comm (Nat.eqb y j)); apply orb_comm).
  replace ((Nat.eqb y i && Nat.eqb x k) || (Nat.eqb y k && Nat.eqb x i)) with ((Nat.eqb x i && Nat.eqb y k) || (Nat.eqb x k && Nat.eqb y i)) by (rewrite (andb_comm (Nat.eqb y i)), (andb_comm (Nat.eqb y k)); apply orb_comm).
  replace ((Nat.eqb y 0 && Nat.eqb x i) || (Nat.eqb y i && Nat.eqb x 0)) with ((Nat.eqb x 0 && Nat.eqb y i) || (Nat.eqb x i && Nat.eqb y 0)) by (rewrite (andb_comm (Nat.eqb y 0)), (andb_comm (Nat.eqb y i)); apply orb_comm).
  replace ((Nat.eqb y j && Nat.eqb x k) || (Nat.eqb y k && Nat.eqb x j)) with ((Nat.eqb x j && Nat.eqb y k) || (Nat.eqb x k && Nat.eqb y j)) by (rewrite (andb_comm (Nat.eqb y j)), (andb_comm (Nat.eqb y k)); apply orb_comm).
  reflexivity.
Qed.

Section Swapped.
  Context (adj : nat -> nat -> bool) (i j k n : nat).
  Hypothesis Sy : forall x y, adj x y = adj y x.
  Hypothesis Ir : forall x, adj x x = false.
  Hypothesis D1 : i <> O. Hypothesis D2 : j <> O. Hypothesis D3 : k <> O. Hypothesis D4 : i <> j. Hypothesis D5 : k <> j. Hypothesis D6 : k <> i.
  Hypothesis Ln : (0 < n)%nat. Hypothesis Li : (i < n)%nat. Hypothesis Lj : (j < n)%nat. Hypothesis Lk : (k < n)%nat.
  Hypothesis A0i : adj O i = false. Hypothesis A0j : adj O j = true. Hypothesis Aik : adj i k = true. Hypothesis Ajk : adj j k = false.

  Lemma swapped_irr x : swapped adj i j k x x = false.
  Proof. unfold swapped. rewrite Ir. eqb_cases. Qed.

  Lemma swapped_deg x : how_many n (swapped adj i j k x) = how_many n (adj x).
  Proof.
    destruct (Nat.eq_dec x O) as [->|X0]; [|destruct (Nat.eq_dec x i) as [->|Xi]; [|destruct (Nat.eq_dec x j) as [->|Xj]; [|destruct (Nat.eq_dec x k) as [->|Xk]]]].
    - apply (hm_swap n _ _ j i); try assumption; try congruence; unfold swapped; [eqb_cases|eqb_cases|intros y Y1 Y2; eqb_cases].
    - apply (hm_swap n _ _ k O); try assumption; try congruence; try (rewrite Sy; assumption); unfold swapped; [eqb_cases|eqb_cases|intros y Y1 Y2; eqb_cases].
    - apply (hm_swap n _ _ O k); try assumption; try congruence; try (rewrite Sy; assumption); unfold swapped; [eqb_cases|eqb_cases|intros y Y1 Y2; eqb_cases].
    - apply (hm_swap n _ _ i j); try assumption; try congruence; try (rewrite Sy; assumption); unfold swapped; [eqb_cases|eqb_cases|intros y Y1 Y2; eqb_cases].
    - apply hm_ext. intros y _. unfold swapped. eqb_cases.
  Qed.
End Swapped.

(** ** One round *)
Section Round.
  Context (d : nat) (T : list Z).
  Let n := Datatypes.S (length T).
  Hypothesis Srt : forall i j a b, (i <= j)%nat -> nth_error T i = Some a -> nth_error T j = Some b -> b <= a.
  Hypothesis Hd : (d <= length T)%nat.

  Definition realises (adj : nat -> nat -> bool) : Prop :=
    (forall x y, adj x y = adj y x) /\ (forall x, adj x x = false) /\ forall x e, nth_error (Z.of_nat d :: T) x = Some e -> e = how_many n (adj x).

  Lemma canonical : forall m adj, realises adj -> how_many n (fun y => upto d y && negb (adj O y)) <= Z.of_nat m ->
    exists adj', realises adj' /\ forall y, (y < n)%nat -> adj' O y = upto d y.
  Proof using Srt Hd.
    induction m as [|m IH]; intros adj R L; destruct R as (Sy & Ir & Dg).
    - exists adj. split; [split; [exact Sy|split; [exact Ir|exact Dg]]|].
      assert (Up : forall y, (y < n)%nat -> upto d y = true -> adj O y = true).
      { intros y Hy U. destruct (adj O y) eqn:E; [reflexivity|]. exfalso. pose proof (hm_lt n (fun _ => false) (fun y => upto d y && negb (adj O y)) y Hy eq_refl) as H.
        cbv beta in H. rewrite U, E in H. specialize (H eq_refl). pose proof (hm_range n (fun _ => false)). lapply H; [lia|]. intros; discriminate. }
      assert (D0 : Z.of_nat d = how_many n (adj O)) by (apply (Dg O); reflexivity).
      intros y Hy. destruct (upto d y) eqn:U; [apply Up; assumption|]. destruct (adj O y) eqn:E; [|reflexivity]. exfalso.
      assert (H : how_many n (upto d) < how_many n (adj O)) by (apply (hm_lt n _ _ y Hy U E); exact Up). rewrite hm_upto in H by (unfold n; lia). lia.
    - destruct (hm_search n (fun y => upto d y && negb (adj O y))) as [(i & Hi & Ei)|None].
      2:{ apply (IH adj); [split; [exact Sy|split; [exact Ir|exact Dg]]|]. rewrite (hm_ext n _ (fun _ => false)) by exact None.
          assert (Z0 : forall k, how_many k (fun _ => false) = 0) by (induction k as [|k IHk]; [reflexivity|rewrite hm_S, IHk; reflexivity]). rewrite Z0. lia. }
      apply andb_true_iff in Ei as (Ui & Ei). apply negb_true_iff in Ei. pose proof Ui as Ui'. unfold upto in Ui. apply andb_true_iff in Ui as (U1 & U2). apply Nat.leb_le in U1, U2.
      destruct (exchange d T adj Sy Ir Dg Srt Hd i ltac:(lia) Ei) as (j & k & Lj & Lk & E0j & Eik & Ejk & K0 & Kj & Ki). fold n in Lj, Lk.
      apply (IH (swapped adj i j k)).
      + split; [apply swapped_sym, Sy|]. split; [apply swapped_irr; try assumption; lia|]. intros x e E. rewrite (swapped_deg adj i j k n); try assumption; try lia. apply Dg, E.
      + rewrite (hm_upd n (fun y => upto d y && negb (adj O y)) _ i Hi).
        * cbv beta. rewrite Ui', Ei. cbn [andb negb b2z]. replace (swapped adj i j k 0 i) with true by (unfold swapped; eqb_cases). cbn [negb b2z]. lia.
        * intros y Hy Dy. destruct (upto d y) eqn:Uy; [|reflexivity]. cbn [andb]. f_equal. unfold swapped. unfold upto in Uy. apply andb_true_iff in Uy as (_ & Uy). apply Nat.leb_le in Uy. eqb_cases.
  Qed.

  Lemma round_forward adj T' : realises adj -> length T' = length T ->
    (forall x, nth_error T' x = match nth_error T x with Some e => Some (e - b2z (x <? d)%nat) | None => None end) -> graphic T'.
  Proof using Srt Hd.
    intros R L N. destruct (canonical (Z.to_nat (how_many n (fun y => upto d y && negb (adj O y)))) adj R) as (a & (Sy & Ir & Dg) & U).
    { pose proof (hm_range n (fun y => upto d y && negb (adj O y))). lia. }
    exists (fun x y => a (S x) (S y)). split; [intros x y; apply Sy|]. split; [intros x; apply Ir|]. intros x e E. rewrite N in E. destruct (nth_error T x) as [t|] eqn:Et; [|discriminate]. injection E as <-.
    pose proof (nth_lt _ _ _ Et) as Lx. rewrite (Dg (S x) t Et). unfold n. rewrite L, hm_shift, (Sy (S x) O), U by (unfold n; lia).
    replace (upto d (S x)) with (x <? d)%nat; [lia|]. unfold upto. destruct (Nat.ltb_spec x d), (Nat.leb_spec (S x) d); try lia; reflexivity.
  Qed.

  Lemma round_backward T' : length T' = length T ->
    (forall x, nth_error T' x = match nth_error T x with Some e => Some (e - b2z (x <? d)%nat) | None => None end) -> graphic T' -> graphic (Z.of_nat d :: T).
  Proof using Hd.
    intros L N (a & Sy & Ir & Dg).
    exists (fun x y => match x, y with O, O => false | O, S y => (y <? d)%nat | S x, O => (x <? d)%nat | S x, S y => a x y end).
    split; [intros [|x] [|y]; try reflexivity; apply Sy|]. split; [intros [|x]; [reflexivity|apply Ir]|].
    intros [|x] e E; cbn [length]; rewrite hm_shift; cbn [b2z].
    - cbn in E. injection E as <-. pose proof (hm_upto n d ltac:(unfold n; lia)) as H. unfold n in H. rewrite hm_shift in H. rewrite <- H. cbn [upto Nat.leb andb b2z]. reflexivity.
    - cbn in E. assert (E' : nth_error T' x = Some (e - b2z (x <? d)%nat)) by (rewrite N, E; reflexivity). apply Dg in E'. rewrite L in E'. change (fun y : nat => a x y) with (a x). lia.
  Qed.
End Round.

Lemma decrement_ok d : forall T, (d <= length T)%nat -> exists T', decrement d T = Ret T' /\ length T' = length T /\
  forall x, nth_error T' x = match nth_error T x with Some e => Some (e - b2z (x <? d)%nat) | None => None end.
Proof.
  induction d as [|d IH]; intros T L.
  - exists T. split; [destruct T; reflexivity|]. split; [reflexivity|]. intros x. destruct (nth_error T x); [|reflexivity]. cbn. rewrite Z.sub_0_r. reflexivity.
  - destruct T as [|t T]; [cbn in L; lia|]. cbn [length] in L. destruct (IH T ltac:(lia)) as (T' & E & L' & N). exists (t - 1 :: T'). cbn [decrement]. rewrite E. cbn [bind length]. split; [reflexivity|]. split; [lia|].
    intros [|x]; [reflexivity|]. cbn [nth_error]. rewrite N. reflexivity.
Qed.

Lemma sorted_desc l : StronglySorted (fun a b => b <= a) (rev (zsort l)).
Proof.
  pose proof (zsort_sorted l) as H. induction H as [|x m H IH F]; [constructor|]. cbn [rev].
  assert (K : forall u v, StronglySorted (fun a b => b <= a) u -> (forall y, In y u -> v <= y) -> StronglySorted (fun a b => b <= a) (u ++ [v])).
  { induction 1 as [|y u Hu IHu Fu]; intros Hv; cbn [app]; constructor; [constructor|constructor|apply IHu; intros z Hz; apply Hv; right; exact Hz|].
    apply Forall_app. split; [exact Fu|]. constructor; [apply Hv; left; reflexivity|constructor]. }
  apply K; [exact IH|]. intros y Hy. apply in_rev in Hy. rewrite Forall_forall in F. apply F, Hy.
Qed.

Lemma sorted_nth l : StronglySorted (fun a b => b <= a) l -> forall i j a b, (i <= j)%nat -> nth_error l i = Some a -> nth_error l j = Some b -> b <= a.
Proof.
  induction 1 as [|x l H IH F]; intros i j a b L Ea Eb; [destruct i; discriminate|]. rewrite Forall_forall in F. destruct i as [|i], j as [|j]; cbn in Ea, Eb; try lia.
  - injection Ea as <-. injection Eb as <-. lia.
  - injection Ea as <-. apply F, (nth_error_In _ _ Eb).
  - apply (IH i j a b); [lia|exact Ea|exact Eb].
Qed.

Lemma graphic_range S e : graphic S -> In e S -> 0 <= e < Z.of_nat (length S).
Proof.
  intros (adj & Sy & Ir & D) H. apply In_nth_error in H as (x & E). pose proof (nth_lt _ _ _ E) as L. rewrite (D x e E). split; [apply hm_range|].
  apply Z.lt_le_trans with (how_many (length S) (fun _ => true)); [|apply hm_range]. apply (hm_lt _ _ _ x); auto.
Qed.

Lemma hh_loop_ok : forall fuel T, (length T < fuel)%nat -> (forall e, In e T -> e < Z.of_nat (length T)) ->
  exists b, hh_loop fuel T = Ret b /\ (b = true <-> graphic T).
Proof.
  induction fuel as [|fuel IH]; intros T LF Small; [lia|]. cbn [hh_loop].
  destruct (existsb (fun e => e <? 0) T) eqn:Neg.
  { exists false. split; [reflexivity|]. split; [discriminate|]. intros G. apply existsb_exists in Neg as (e & He & L). apply Z.ltb_lt in L. pose proof (graphic_range T e G He). lia. }
  assert (Pos : forall e, In e T -> 0 <= e).
  { intros e He. destruct (Z.lt_ge_cases e 0) as [L|L]; [|exact L]. assert (existsb (fun e => e <? 0) T = true); [|congruence]. apply existsb_exists. exists e. split; [exact He|apply Z.ltb_lt, L]. }
  destruct (forallb (fun e => negb (0 <? e)) T) eqn:Zero.
  { exists true. split; [reflexivity|]. split; [|reflexivity]. intros _. exists (fun _ _ => false). split; [reflexivity|]. split; [reflexivity|]. intros x e E.
    assert (He := nth_error_In _ _ E). rewrite forallb_forall in Zero. specialize (Zero e He). apply negb_true_iff, Z.ltb_ge in Zero. specialize (Pos e He).
    assert (Z0 : forall k, how_many k (fun _ => false) = 0) by (induction k as [|k IHk]; [reflexivity|rewrite hm_S, IHk; reflexivity]). rewrite Z0. lia. }
  assert (P : Permutation (rev (zsort T)) T) by (rewrite <- Permutation_rev; apply zsort_perm).
  pose proof (sorted_desc T) as Srt. destruct (rev (zsort T)) as [|z R] eqn:Er.
  { exfalso. apply Permutation_nil in P. subst T. discriminate. }
  pose proof (Permutation_length P) as LP. cbn [length] in LP. inversion_clear Srt as [|? ? SR FR]. rewrite Forall_forall in FR.
  assert (Hz : 0 <= z < Z.of_nat (length T)) by (split; [apply Pos|apply Small]; apply (Permutation_in _ P); left; reflexivity).
  destruct (decrement_ok (Z.to_nat z) R ltac:(lia)) as (R' & E & LR & NR). rewrite E. cbn [bind].
  destruct (IH R') as (b & Eb & Hb).
  - lia.
  - intros e He. apply In_nth_error in He as (x & Ex). pose proof (nth_lt _ _ _ Ex) as Lx. rewrite NR in Ex. destruct (nth_error R x) as [t|] eqn:Et; [|discriminate]. injection Ex as <-.
    pose proof (FR t (nth_error_In _ _ Et)). destruct (Nat.ltb_spec x (Z.to_nat z)); cbn [b2z]; lia.
  - exists b. split; [exact Eb|]. rewrite Hb. assert (SR' := sorted_nth R SR). split.
    + intros G. apply (graphic_perm (z :: R) T P). replace z with (Z.of_nat (Z.to_nat z)) by lia. apply (round_backward (Z.to_nat z) R ltac:(lia) R' LR NR G).
    + intros G. apply (graphic_perm T (z :: R) (Permutation_sym P)) in G. destruct G as (adj & G). apply (round_forward (Z.to_nat z) R SR' ltac:(lia) adj R'); [|exact LR|exact NR].
      unfold realises. rewrite Z2Nat.id by lia. exact G.
Qed.

Lemma is_graphic_ok S : exists b, is_graphic S = Ret b /\ (b = true <-> graphic S).
Proof.
  unfold is_graphic. destruct (existsb (fun d => Z.of_nat (length S) <=? d) S) eqn:Big.
  - exists false. split; [reflexivity|]. split; [discriminate|]. intros G. apply existsb_exists in Big as (e & He & L). apply Z.leb_le in L. pose proof (graphic_range S e G He). lia.
  - apply hh_loop_ok; [lia|]. intros e He. destruct (Z.lt_ge_cases e (Z.of_nat (length S))) as [L|L]; [exact L|]. assert (existsb (fun d => Z.of_nat (length S) <=? d) S = true); [|congruence].
    apply existsb_exists. exists e. split; [exact He|apply Z.leb_le, L].
Qed.
