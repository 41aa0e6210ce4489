(** * Erdos-Gallai: the inequalities suffice (Choudum's induction) *)
From Coq Require Import ZArith List Bool Lia Permutation Sorting.Sorted.
From Verif Require Import Base Py Lists Ham_Proofs3 Degree_Spec Degree_Model Degree_Proofs Degree_Proofs2.
Import ListNotations.
Open Scope Z_scope.

(** ** Sums *)
Lemma sumn_ext a n f h : (forall y, (a <= y < a + n)%nat -> f y = h y) -> sumn a n f = sumn a n h.
Proof. intros H. apply zsum_ext. intros y Hy. apply in_seq in Hy. apply H. lia. Qed.
Lemma sumn_plus a n f h : sumn a n (fun y => f y + h y) = sumn a n f + sumn a n h.
Proof. apply zsum_plus. Qed.
Lemma sumn_mul a n c f : sumn a n (fun y => c * f y) = c * sumn a n f.
Proof. apply zsum_mul. Qed.
Lemma sumn_first a n f : sumn a (S n) f = f a + sumn (S a) n f.
Proof. unfold sumn. cbn [seq map]. apply zsum_cons. Qed.
Lemma sumn_last a n f : sumn a (S n) f = sumn a n f + f (a + n)%nat.
Proof. unfold sumn. rewrite seq_S, map_app, zsum_app. cbn. lia. Qed.
Lemma sumn_one a n f c : (a <= c < a + n)%nat -> (forall y, (a <= y < a + n)%nat -> 0 <= f y) -> f c <= sumn a n f.
Proof.
  revert a. induction n as [|n IH]; intros a Hc H; [lia|]. rewrite sumn_first. assert (H0 : forall y, (S a <= y < S a + n)%nat -> 0 <= f y) by (intros y Hy; apply H; lia).
  destruct (Nat.eq_dec a c) as [->|D].
  - assert (sumn (S c) n (fun _ => 0) <= sumn (S c) n f) by (apply sumn_le; exact H0). rewrite sumn_const in H1. lia.
  - specialize (IH (S a) ltac:(lia) H0). specialize (H a ltac:(lia)). lia.
Qed.
Definition at_ (c i : nat) : Z := if Nat.eqb i c then 1 else 0.
Lemma sumn_at a n c : sumn a n (at_ c) = if (a <=? c)%nat && (c <? a + n)%nat then 1 else 0.
Proof.
  revert a. induction n as [|n IH]; intros a.
  - change (sumn a 0 (at_ c)) with 0. destruct (Nat.leb_spec a c), (Nat.ltb_spec c (a + 0)); cbn [andb]; lia.
  - rewrite sumn_first, IH. unfold at_. destruct (Nat.eqb_spec a c), (Nat.leb_spec a c), (Nat.leb_spec (S a) c), (Nat.ltb_spec c (a + S n)), (Nat.ltb_spec c (S a + n)); cbn [andb]; lia.
Qed.

(** ** Graphs with given degrees *)
Definition realised (n : nat) (d : nat -> Z) : Prop :=
  exists adj : nat -> nat -> bool, (forall x y, adj x y = adj y x) /\ (forall x, adj x x = false) /\ forall x, (x < n)%nat -> d x = how_many n (adj x).

(** The degrees have an even sum. *)
Lemma handshake n d : realised n d -> Z.even (sumn 0 n d) = true.
Proof.
  intros (adj & Sy & Ir & D). rewrite (sumn_ext 0 n d (fun x => how_many n (adj x))) by (intros x Hx; apply D; lia). clear D.
  induction n as [|n IH]; [reflexivity|]. rewrite sumn_last, (sumn_ext 0 n _ (fun x => how_many n (adj x) + b2z (adj x n))) by (intros; apply hm_S).
  rewrite sumn_plus. cbn [Nat.add]. rewrite hm_S, Ir. cbn [b2z]. rewrite (sumn_ext 0 n (fun x => b2z (adj x n)) (fun x => b2z (adj n x))) by (intros; rewrite Sy; reflexivity). rewrite <- hm_sum.
  replace (sumn 0 n (fun x => how_many n (adj x)) + how_many n (adj n) + (how_many n (adj n) + 0)) with (sumn 0 n (fun x => how_many n (adj x)) + how_many n (adj n) * 2) by lia.
  rewrite Z.even_add, IH, Z.even_mul, orb_true_r. reflexivity.
Qed.

(** The edge between a and b is added or removed. *)
Definition toggle (adj : nat -> nat -> bool) (a b : nat) (x y : nat) : bool :=
  if (Nat.eqb x a && Nat.eqb y b) || (Nat.eqb x b && Nat.eqb y a) then negb (adj x y) else adj x y.

Section Toggle.
  Context (adj : nat -> nat -> bool) (a b n : nat).
  Hypothesis Sy : forall x y, adj x y = adj y x.
  Hypothesis Ir : forall x, adj x x = false.
  Hypothesis Dab : a <> b.
  Hypothesis La : (a < n)%nat.
  Hypothesis Lb : (b < n)%nat.

  Lemma toggle_sym x y : toggle adj a b x y = toggle adj a b y x.
  Proof using Sy. unfold toggle. rewrite (Sy x y). destruct (Nat.eqb x a), (Nat.eqb y b), (Nat.eqb x b), (Nat.eqb y a); reflexivity. Qed.
  Lemma toggle_irr x : toggle adj a b x x = false.
  Proof using Ir Dab. unfold toggle. destruct (Nat.eqb_spec x a), (Nat.eqb_spec x b); cbn [andb orb]; try apply Ir. congruence. Qed.
  Lemma toggle_here : toggle adj a b a b = negb (adj a b).
  Proof using. unfold toggle. rewrite !Nat.eqb_refl. reflexivity. Qed.
  Lemma toggle_other x y : ~ (x = a /\ y = b) -> ~ (x = b /\ y = a) -> toggle adj a b x y = adj x y.
  Proof using. intros H1 H2. unfold toggle. destruct (Nat.eqb_spec x a), (Nat.eqb_spec y b), (Nat.eqb_spec x b), (Nat.eqb_spec y a); cbn [andb orb]; reflexivity || (exfalso; tauto). Qed.
  Lemma toggle_deg x : how_many n (toggle adj a b x) = how_many n (adj x) + (at_ a x + at_ b x) * (1 - 2 * b2z (adj a b)).
  Proof using Sy Dab La Lb.
    unfold at_. destruct (Nat.eqb_spec x a) as [->|Da]; [|destruct (Nat.eqb_spec x b) as [->|Db]].
    - destruct (Nat.eqb_spec a b); [contradiction|]. rewrite (hm_upd n (adj a) (toggle adj a b a) b Lb), toggle_here; [destruct (adj a b); cbn [b2z negb]; lia|]. intros y _ D. apply toggle_other; [tauto|intros (E & _); congruence].
    - rewrite (hm_upd n (adj b) (toggle adj a b b) a La), (toggle_sym b a), toggle_here, (Sy b a); [destruct (adj a b); cbn [b2z negb]; lia|]. intros y _ D. apply toggle_other; [intros (E & _); congruence|tauto].
    - rewrite (hm_ext n (toggle adj a b x) (adj x)); [lia|]. intros y _. apply toggle_other; tauto.
  Qed.
End Toggle.

(** A vertex of greater degree has a neighbour that the other lacks. *)
Lemma more_neighbours adj n u v : (forall x y, adj x y = adj y x) -> (forall x, adj x x = false) -> (u < n)%nat -> (v < n)%nat -> u <> v ->
  how_many n (adj v) < how_many n (adj u) -> exists l, (l < n)%nat /\ adj u l = true /\ adj v l = false /\ l <> u /\ l <> v.
Proof.
  intros Sy Ir Hu Hv D L. destruct (hm_search n (fun l => adj u l && negb (adj v l) && negb (Nat.eqb l v))) as [(l & Hl & E)|N].
  - exists l. apply andb_prop in E as (E & E3). apply andb_prop in E as (E1 & E2). split; [exact Hl|]. split; [exact E1|]. split; [destruct (adj v l); [discriminate|reflexivity]|].
    split; [intros ->; rewrite Ir in E1; discriminate|]. intros ->. rewrite Nat.eqb_refl in E3. discriminate.
  - exfalso. set (ru := fun y => if Nat.eqb y v then false else adj u y). set (rv := fun y => if Nat.eqb y u then false else adj v y).
    pose proof (hm_upd n (adj u) ru v Hv) as U1. pose proof (hm_upd n (adj v) rv u Hu) as U2. unfold ru at 1 3 in U1. unfold rv at 1 3 in U2. cbn beta in U1, U2. rewrite Nat.eqb_refl in U1, U2. cbn [b2z] in U1, U2.
    assert (H : how_many n ru <= how_many n rv).
    { apply hm_le. intros y Hy. unfold ru, rv. specialize (N y Hy). destruct (Nat.eqb_spec y v); [discriminate|]. intros E. rewrite E in N. cbn in N.
      destruct (Nat.eqb_spec y u) as [->|]; [rewrite Ir in E; discriminate|]. destruct (adj v y); [reflexivity|discriminate]. }
    rewrite (Sy v u) in U2. assert (E1 : how_many n ru = how_many n (adj u) - b2z (adj u v) + 0) by (apply U1; intros y _ Dy; destruct (Nat.eqb_spec y v); [contradiction|reflexivity]).
    assert (E2 : how_many n rv = how_many n (adj v) - b2z (adj u v) + 0) by (apply U2; intros y _ Dy; destruct (Nat.eqb_spec y u); [contradiction|reflexivity]). lia.
Qed.

(** One more edge at t and at w, w being the vertex of least degree. *)
Lemma one_more n d t w : (t < n)%nat -> (w < n)%nat -> t <> w -> d t <= Z.of_nat n - 1 -> (forall x, (x < n)%nat -> d w <= d x) ->
  realised n (fun x => d x - at_ t x - at_ w x) -> realised n d.
Proof.
  intros Ht Hw D Dt Dw (adj & Sy & Ir & H).
  assert (H' : forall x, (x < n)%nat -> d x = how_many n (adj x) + at_ t x + at_ w x) by (intros x Hx; specialize (H x Hx); lia).
  destruct (adj t w) eqn:E.
  - assert (Nt : exists m, (m < n)%nat /\ m <> t /\ adj t m = false).
    { destruct (hm_search n (fun m => negb (adj t m) && negb (Nat.eqb m t))) as [(m & Hm & Em)|N].
      - exists m. apply andb_prop in Em as (E1 & E2). split; [exact Hm|]. split; [intros ->; rewrite Nat.eqb_refl in E2; discriminate|]. destruct (adj t m); [discriminate|reflexivity].
      - exfalso. pose proof (hm_upd n (fun _ => true) (adj t) t Ht) as U. cbn beta in U. rewrite Ir in U. cbn [b2z] in U. pose proof (H' t Ht) as H0. rewrite U in H0.
        + unfold at_ in H0. rewrite Nat.eqb_refl in H0. destruct (Nat.eqb_spec t w); [contradiction|]. rewrite hm_sum, sumn_const in H0. cbn [b2z] in H0. lia.
        + intros y Hy Dy. specialize (N y Hy). cbn beta in N. destruct (Nat.eqb_spec y t); [contradiction|]. destruct (adj t y); [reflexivity|discriminate]. }
    destruct Nt as (m & Hm & Dm & Em). assert (Dmw : m <> w) by (intros ->; congruence).
    destruct (more_neighbours adj n m w Sy Ir Hm Hw Dmw) as (l & Hl & E1 & E2 & D1 & D2).
    { pose proof (H' m Hm) as Xm. pose proof (H' w Hw) as Xw. pose proof (Dw m Hm). unfold at_ in Xm, Xw. rewrite Nat.eqb_refl in Xw.
      destruct (Nat.eqb_spec m t); [contradiction|]. destruct (Nat.eqb_spec m w); [contradiction|]. destruct (Nat.eqb_spec w t); [congruence|]. lia. }
    assert (Dlt : l <> t) by (intros ->; rewrite Sy in E1; congruence).
    set (a1 := toggle adj m l). set (a2 := toggle a1 t m). set (a3 := toggle a2 w l).
    assert (S1 : forall x y, a1 x y = a1 y x) by (apply toggle_sym, Sy). assert (S2 : forall x y, a2 x y = a2 y x) by (apply toggle_sym, S1).
    exists a3. split; [apply toggle_sym, S2|]. split; [apply toggle_irr; [|congruence]; apply toggle_irr; [|congruence]; apply toggle_irr; [exact Ir|congruence]|].
    intros x Hx. rewrite (H' x Hx). unfold a3. rewrite toggle_deg by (assumption || congruence). unfold a2 at 1. rewrite toggle_deg by (assumption || congruence). unfold a1 at 1. rewrite toggle_deg by (assumption || congruence).
    rewrite E1. assert (X1 : a1 t m = false) by (unfold a1; rewrite toggle_other by (intros (X & Y); congruence); exact Em). rewrite X1.
    assert (X2 : a2 w l = false). { unfold a2. rewrite toggle_other by (intros (X & Y); congruence). unfold a1. rewrite toggle_other by (intros (X & Y); congruence). exact E2. }
    rewrite X2. cbn [b2z]. lia.
  - exists (toggle adj t w). split; [apply toggle_sym, Sy|]. split; [apply toggle_irr; [exact Ir|exact D]|]. intros x Hx. rewrite (H' x Hx), toggle_deg by (assumption || congruence). rewrite E. cbn [b2z]. lia.
Qed.

(** ** The inequalities *)
Definition inequalities (n : nat) (d : nat -> Z) : Prop :=
  forall k, (k <= n)%nat -> sumn 0 k d <= Z.of_nat k * (Z.of_nat k - 1) + sumn k (n - k) (fun i => Z.min (Z.of_nat k) (d i)).

Lemma find_drop n (d : nat -> Z) : (forall i j, (i <= j < S (S n))%nat -> d j <= d i) ->
  exists t, (t <= n)%nat /\ (forall i, (i <= t)%nat -> d i = d O) /\ (t = n \/ d (S t) < d t).
Proof.
  intros M. assert (H : forall m, (m <= n)%nat -> (exists t, (t <= m)%nat /\ (forall i, (i <= t)%nat -> d i = d O) /\ d (S t) < d t) \/ forall i, (i <= m)%nat -> d i = d O).
  { induction m as [|m IH]; intros Hm; [right; intros i Hi; replace i with O by lia; reflexivity|]. destruct (IH ltac:(lia)) as [(t & Ht & E & L)|E].
    - left. exists t. split; [lia|]. split; assumption.
    - destruct (Z_lt_dec (d (S m)) (d m)) as [L|L]; [left; exists m; split; [lia|]; split; assumption|]. right. intros i Hi. destruct (Nat.eq_dec i (S m)) as [->|Di]; [|apply E; lia].
      specialize (M m (S m) ltac:(lia)). rewrite <- (E m) by lia. lia. }
  destruct (H n (le_n n)) as [(t & Ht & E & L)|E]; [exists t; auto|exists n; auto].
Qed.

Section Step.
  Context (n : nat) (d : nat -> Z) (t : nat).
  Let N := S (S n).
  Let w := S n.
  Let d' := fun x => d x - at_ t x - at_ w x.
  Hypothesis M : forall i j, (i <= j < N)%nat -> d j <= d i.
  Hypothesis Pos : 1 <= d w.
  Hypothesis Ev : Z.even (sumn 0 N d) = true.
  Hypothesis EG : inequalities N d.
  Hypothesis Ht : (t <= n)%nat.
  Hypothesis Eq : forall i, (i <= t)%nat -> d i = d O.
  Hypothesis Drop : t = n \/ d (S t) < d t.

  Lemma step_sum k : (k <= N)%nat -> sumn 0 k d' = sumn 0 k d - (if (t <? k)%nat then 1 else 0) - (if (w <? k)%nat then 1 else 0).
  Proof using.
    clear M Pos Ev EG Eq Drop Ht. intros Hk. unfold d'. rewrite (sumn_ext 0 k _ (fun x => d x + (-1 * at_ t x + -1 * at_ w x))) by (intros; lia).
    rewrite !sumn_plus, !sumn_mul, !sumn_at. cbn [Nat.leb andb Nat.add]. lia.
  Qed.

  Lemma step_sorted i j : (i <= j < N)%nat -> d' j <= d' i.
  Proof using M Ht Eq Drop.
    intros Hij. pose proof (M i j Hij) as H. unfold d', at_. destruct (Nat.eqb_spec j t), (Nat.eqb_spec j w), (Nat.eqb_spec i t), (Nat.eqb_spec i w); unfold w, N in *; try lia.
    - subst i. destruct Drop as [->|L]; [lia|]. specialize (M (S t) j ltac:(lia)). lia.
  Qed.

  Lemma step_nonneg i : (i < N)%nat -> 0 <= d' i.
  Proof using M Pos Ht Eq.
    clear Drop. intros Hi. pose proof (M i w ltac:(unfold w, N in *; lia)). unfold d', at_. destruct (Nat.eqb_spec i t), (Nat.eqb_spec i w); unfold w in *; try lia.
  Qed.

  Lemma step_inequalities : inequalities N d'.
  Proof using M Pos Ev EG Ht Eq.
    clear Drop. intros k Hk. rewrite step_sum by exact Hk. pose proof (EG k Hk) as G. set (K := Z.of_nat k) in *.
    assert (Hw : forall i, (i < N)%nat -> d w <= d i) by (intros i Hi; apply M; unfold w, N in *; lia).
    destruct (Nat.ltb_spec t k) as [Lt|Ge].
    - assert (B : sumn k (N - k) (fun i => Z.min K (d i) + -1 * at_ w i) <= sumn k (N - k) (fun i => Z.min K (d' i))).
      { apply sumn_le. intros i Hi. unfold d', at_. destruct (Nat.eqb_spec i t), (Nat.eqb_spec i w); lia. }
      rewrite sumn_plus, sumn_mul, sumn_at in B. destruct (Nat.leb_spec k w), (Nat.ltb_spec w (k + (N - k))), (Nat.ltb_spec w k); cbn [andb] in B; unfold w, N in *; lia.
    - destruct (Nat.ltb_spec w k) as [X|_]; [unfold w in X; lia|]. set (D := d O) in *.
      assert (Sk : forall m, (m <= S t)%nat -> sumn 0 m d = Z.of_nat m * D) by (intros m Hm; rewrite (sumn_ext 0 m d (fun _ => D)) by (intros i Hi; apply Eq; lia); apply sumn_const).
      rewrite (Sk k) in * by lia. fold K in G. fold K.
      assert (Nn : forall i, (k <= i < k + (N - k))%nat -> 0 <= Z.min K (d' i)) by (intros i Hi; pose proof (step_nonneg i ltac:(lia)); unfold K; lia).
      destruct (Z_le_dec D (K - 1)) as [C1|C1]; [|destruct (Z.eq_dec D K) as [C2|C2]].
      + assert (sumn k (N - k) (fun _ => 0) <= sumn k (N - k) (fun i => Z.min K (d' i))) by (apply sumn_le; exact Nn). rewrite sumn_const in H.
        assert (K * D <= K * (K - 1)) by (apply Z.mul_le_mono_nonneg_l; unfold K in *; lia). lia.
      + rewrite C2. assert (K <= sumn k (N - k) (fun i => Z.min K (d' i))); [|lia].
        assert (Hk1 : k = t \/ (k < t)%nat) by lia. destruct Hk1 as [Hk1|Hk1].
        * (* the vertex t is the next one *) replace (N - k)%nat with (S (S n - k)) by (unfold N; lia). rewrite sumn_first.
          assert (Dk : Z.min K (d' k) = K - 1). { unfold d', at_. rewrite Hk1, Nat.eqb_refl. destruct (Nat.eqb_spec t w); [unfold w in *; lia|]. rewrite (Eq t) by lia. lia. }
          rewrite Dk. assert (1 <= sumn (S k) (S n - k) (fun i => Z.min K (d' i))); [|lia]. assert (Kp : 1 <= K) by (pose proof (Hw O ltac:(unfold N; lia)); unfold D in *; lia).
          assert (Nn' : forall i, (S k <= i < S k + (S n - k))%nat -> 0 <= Z.min K (d' i)) by (intros i Hi; apply Nn; unfold N; lia).
          destruct (Nat.eq_dec t n) as [Etn|Dtn].
          -- transitivity (Z.min K (d' w)); [|apply (sumn_one (S k) (S n - k) (fun i => Z.min K (d' i)) w); [unfold w; lia|exact Nn']].
             assert (2 <= d w). { assert (d w <> 1); [|lia]. intros E1. revert Ev. unfold N. rewrite sumn_last, (Sk (S n)) by lia. cbn [Nat.add]. fold w. rewrite E1, C2. unfold K. rewrite Hk1, Etn.
               replace (Z.of_nat w * Z.of_nat n + 1) with (Z.of_nat n * Z.succ (Z.of_nat n) + 1) by (unfold w; lia). rewrite Z.even_add, Z.even_mul, Z.even_succ, <- Z.negb_even. destruct (Z.even (Z.of_nat n)); discriminate. }
             unfold d', at_. rewrite Nat.eqb_refl. destruct (Nat.eqb_spec w t); [unfold w in *; lia|]. lia.
          -- transitivity (Z.min K (d' (S t))); [|apply (sumn_one (S k) (S n - k) (fun i => Z.min K (d' i)) (S t)); [lia|exact Nn']].
             pose proof (Hw (S t) ltac:(unfold N; lia)). unfold d', at_. destruct (Nat.eqb_spec (S t) t); [lia|]. destruct (Nat.eqb_spec (S t) w); [unfold w in *; lia|]. lia.
        * transitivity (Z.min K (d' k)); [|apply (sumn_one k (N - k) (fun i => Z.min K (d' i)) k); [unfold N; lia|exact Nn]].
          unfold d', at_. destruct (Nat.eqb_spec k t); [lia|]. destruct (Nat.eqb_spec k w); [unfold w in *; lia|]. rewrite (Eq k) by lia. lia.
      + destruct (Z_le_dec (d w) K) as [C3|C3].
        * (* the last degree is at most K *)
          set (q := sumn k (N - k) (fun i => if d i <=? K then 0 else 1)). set (s := sumn k (N - k) (fun i => if d i <=? K then d i else 0)).
          assert (F0 : sumn k (N - k) (fun i => Z.min K (d i)) = K * q + s).
          { unfold q, s. rewrite <- sumn_mul, <- sumn_plus. apply sumn_ext. intros i _. destruct (Z.leb_spec (d i) K); lia. }
          assert (F1 : sumn k (N - k) (fun i => Z.min (K + 1) (d i)) = (K + 1) * q + s).
          { unfold q, s. rewrite <- sumn_mul, <- sumn_plus. apply sumn_ext. intros i _. destruct (Z.leb_spec (d i) K); lia. }
          assert (F2 : sumn k (N - k) (fun i => Z.min K (d' i)) = K * q + s - 1).
          { rewrite <- F0. rewrite (sumn_ext k (N - k) _ (fun i => Z.min K (d i) + -1 * at_ w i)).
            - rewrite sumn_plus, sumn_mul, sumn_at. destruct (Nat.leb_spec k w), (Nat.ltb_spec w (k + (N - k))); cbn [andb]; unfold w, N in *; lia.
            - intros i Hi. unfold d', at_. destruct (Nat.eqb_spec i t) as [Et|], (Nat.eqb_spec i w) as [Ew|]; try (unfold w in *; lia); [rewrite Et, (Eq t) by lia; lia|rewrite Ew; lia]. }
          assert (Hs : 1 <= s). { transitivity (if d w <=? K then d w else 0); [destruct (Z.leb_spec (d w) K); lia|]. apply (sumn_one k (N - k) (fun i => if d i <=? K then d i else 0) w); [unfold w, N; lia|].
            intros i Hi. pose proof (Hw i ltac:(lia)). destruct (Z.leb_spec (d i) K); lia. }
          pose proof (EG (S k) ltac:(unfold N; lia)) as G1. rewrite (Sk (S k)) in G1 by lia. replace (Z.of_nat (S k)) with (K + 1) in G1 by (unfold K; lia).
          assert (F3 : sumn k (N - k) (fun i => Z.min (K + 1) (d i)) = (K + 1) + sumn (S k) (N - S k) (fun i => Z.min (K + 1) (d i))).
          { replace (N - k)%nat with (S (N - S k)) by (unfold N; lia). rewrite sumn_first. rewrite (Eq k) by lia. fold D. lia. }
          rewrite F0 in G. rewrite F2. rewrite F1 in F3. assert (Kn : 0 <= K) by (unfold K; lia). clearbody q s K D. clear - G G1 F3 Hs Kn.
          destruct (Z_le_dec (K * D) (K * (K - 1) + (K * q + s - 1))) as [|X]; [lia|]. exfalso. assert (D <= q + K - 1) by nia. assert (K * D <= K * (q + K - 1)) by (apply Z.mul_le_mono_nonneg_l; lia). lia.
        * (* no minimum changes *)
          rewrite (sumn_ext k (N - k) (fun i => Z.min K (d' i)) (fun i => Z.min K (d i))); [lia|]. intros i Hi. pose proof (Hw i ltac:(lia)). unfold d', at_.
          destruct (Nat.eqb_spec i t) as [Et|], (Nat.eqb_spec i w) as [Ew|]; unfold w in *; lia.
  Qed.
End Step.

Lemma inequalities_suffice : forall m n d, (Z.to_nat (sumn 0 n d) + n < m)%nat -> (forall i, (i < n)%nat -> 0 <= d i) -> (forall i j, (i <= j < n)%nat -> d j <= d i) ->
  Z.even (sumn 0 n d) = true -> inequalities n d -> realised n d.
Proof.
  induction m as [|m IH]; intros n d Hm Nn M Ev EG; [lia|]. destruct n as [|n]; [exists (fun _ _ => false); repeat split; intros; lia|].
  destruct (Z.eq_dec (d n) 0) as [Z0|P].
  - destruct (IH n d) as (adj & Sy & Ir & H).
    + rewrite sumn_last in Hm. cbn [Nat.add] in Hm. rewrite Z0, Z.add_0_r in Hm. lia.
    + intros i Hi. apply Nn. lia.
    + intros i j Hij. apply M. lia.
    + rewrite sumn_last in Ev. cbn [Nat.add] in Ev. rewrite Z0, Z.add_0_r in Ev. exact Ev.
    + intros k Hk. specialize (EG k ltac:(lia)). replace (S n - k)%nat with (S (n - k)) in EG by lia. rewrite sumn_last in EG. replace (k + (n - k))%nat with n in EG by lia. rewrite Z0 in EG. lia.
    + exists (fun x y => adj x y && (x <? n)%nat && (y <? n)%nat). split; [intros x y; rewrite Sy, <- !andb_assoc, (andb_comm (x <? n)%nat); reflexivity|]. split; [intros x; rewrite Ir; reflexivity|].
      intros x Hx. rewrite hm_S. rewrite Nat.ltb_irrefl, andb_false_r. cbn [b2z]. destruct (Nat.ltb_spec x n) as [L|L].
      * rewrite (H x L). rewrite Z.add_0_r. apply hm_ext. intros y Hy. destruct (Nat.ltb_spec y n); [|lia]. rewrite !andb_true_r. reflexivity.
      * transitivity 0; [replace x with n by lia; exact Z0|]. rewrite Z.add_0_r. transitivity (how_many n (fun _ => false)); [|apply hm_ext; intros; rewrite andb_false_r; reflexivity]. rewrite hm_sum. cbn [b2z]. rewrite sumn_const. lia.
  - pose proof (Nn n ltac:(lia)) as Pn. destruct n as [|n].
    { exfalso. specialize (EG 1%nat ltac:(lia)). cbn in EG. lia. }
    destruct (find_drop n d M) as (t & Ht & Eq & Drop).
    apply (one_more (S (S n)) d t (S n)); try lia.
    + pose proof (EG 1%nat ltac:(lia)) as E1. change (sumn 0 1 d) with (d O + 0) in E1. change (Z.of_nat 1) with 1 in E1. rewrite (Eq t) by lia.
      assert (sumn 1 (S (S n) - 1) (fun i => Z.min 1 (d i)) <= sumn 1 (S (S n) - 1) (fun _ => 1)) by (apply sumn_le; intros; lia). rewrite sumn_const in H. lia.
    + intros x Hx. apply M. lia.
    + apply IH.
      * rewrite (step_sum n d t (S (S n))) by lia. destruct (Nat.ltb_spec t (S (S n))); [|lia]. destruct (Nat.ltb_spec (S n) (S (S n))); [|lia].
        assert (d (S n) <= sumn 0 (S (S n)) d) by (apply sumn_one; [lia|intros; apply Nn; lia]). lia.
      * intros i Hi. apply step_nonneg; try assumption; lia.
      * intros i j Hij. apply step_sorted; assumption.
      * rewrite (step_sum n d t (S (S n))) by lia. destruct (Nat.ltb_spec t (S (S n))); [|lia]. destruct (Nat.ltb_spec (S n) (S (S n))); [|lia].
        replace (sumn 0 (S (S n)) d - 1 - 1) with (sumn 0 (S (S n)) d - 2) by lia. rewrite Z.even_sub, Ev. reflexivity.
      * apply step_inequalities; try assumption; lia.
Qed.

(** ** Back to lists *)
Lemma graphic_realised S : graphic S <-> realised (length S) (fun x => nth x S 0).
Proof.
  split; intros (adj & Sy & Ir & H); exists adj; (split; [exact Sy|split; [exact Ir|]]).
  - intros x Hx. apply H. apply nth_error_nth'. exact Hx.
  - intros x d E. pose proof (nth_lt _ _ _ E). rewrite <- (H x) by assumption. symmetry. apply nth_error_nth. exact E.
Qed.

Lemma sumn_nth S : sumn 0 (length S) (fun x => nth x S 0) = zsum S.
Proof. symmetry. apply sumn_list. intros x d E. symmetry. apply nth_error_nth. exact E. Qed.

Lemma graphic_even S : graphic S -> Z.even (zsum S) = true.
Proof. intros G. apply graphic_realised, handshake in G. rewrite sumn_nth in G. exact G. Qed.

Lemma eg_loop_true : forall T k s, eg_loop k s T = true ->
  forall A t B, T = A ++ t :: B -> s + zsum A + t <= (k + Z.of_nat (length A)) * (k + Z.of_nat (length A) + 1) + zsum (map (Z.min (k + Z.of_nat (length A) + 1)) B).
Proof.
  induction T as [|x T IH]; intros k s H A t B E; [destruct A; discriminate|]. cbn [eg_loop] in H.
  destruct (Z.ltb_spec (k * (k + 1) + zsum (map (Z.min (k + 1)) T)) (s + x)) as [|L]; [discriminate|]. destruct A as [|a A]; cbn [app] in E; injection E as -> ->.
  - cbn [length zsum fold_right]. change (Z.of_nat 0) with 0. rewrite !Z.add_0_r. lia.
  - specialize (IH _ _ H A t B eq_refl). rewrite zsum_cons. cbn [length]. replace (k + Z.of_nat (Datatypes.S (length A))) with (k + 1 + Z.of_nat (length A)) by lia. lia.
Qed.

Lemma erdos_gallai_sufficient S : (forall e, In e S -> 0 <= e) -> Z.even (zsum S) = true -> is_graphic_erdos_gallai S = true -> graphic S.
Proof.
  intros Nn Ev H. unfold is_graphic_erdos_gallai in H. set (T := rev (zsort S)) in *.
  assert (P : Permutation T S) by (unfold T; rewrite <- Permutation_rev; apply zsort_perm). apply (graphic_perm T S P).
  assert (Sum : zsum T = zsum S) by (clear - P; induction P; rewrite ?zsum_cons; lia). pose proof (sorted_desc S) as Srt. fold T in Srt. apply graphic_realised.
  apply (inequalities_suffice (Datatypes.S (Z.to_nat (sumn 0 (length T) (fun x => nth x T 0)) + length T))); [lia| | | |].
  - intros i Hi. apply Nn. apply (Permutation_in _ P). apply nth_In. exact Hi.
  - intros i j Hij. apply (sorted_nth T Srt i j); [lia| |]; apply nth_error_nth'; lia.
  - rewrite sumn_nth, Sum. exact Ev.
  - intros k Hk. destruct k as [|k].
    { change (sumn 0 0 (fun x => nth x T 0)) with 0. rewrite Nat.sub_0_r. assert (sumn 0 (length T) (fun _ => 0) <= sumn 0 (length T) (fun i => Z.min (Z.of_nat 0) (nth i T 0))); [|rewrite sumn_const in H0; change (Z.of_nat 0) with 0 in *; lia].
      apply sumn_le. intros y Hy. assert (0 <= nth y T 0) by (apply Nn, (Permutation_in _ P), nth_In; lia). lia. }
    destruct (nth_error T k) as [t|] eqn:Et; [|apply nth_error_None in Et; lia]. destruct (nth_error_split T k Et) as (A & B & E & LA).
    pose proof (eg_loop_true T 0 0 H A t B E) as G. rewrite LA, !Z.add_0_l in G.
    assert (E1 : sumn 0 (Datatypes.S k) (fun x => nth x T 0) = zsum A + t).
    { rewrite sumn_last. cbn [Nat.add]. rewrite (nth_error_nth T k 0 Et). f_equal. rewrite <- LA. symmetry. apply sumn_list. intros x e Ex. cbn [Nat.add]. symmetry. apply nth_error_nth. rewrite E, nth_error_app1; [exact Ex|]. apply nth_error_Some. congruence. }
    assert (E2 : sumn (Datatypes.S k) (length T - Datatypes.S k) (fun i => Z.min (Z.of_nat (Datatypes.S k)) (nth i T 0)) = zsum (map (Z.min (Z.of_nat k + 1)) B)).
    { replace (length T - Datatypes.S k)%nat with (length (map (Z.min (Z.of_nat k + 1)) B)) by (rewrite map_length, E, app_length; cbn [length]; lia). symmetry. apply sumn_list.
      intros x e Ex. rewrite nth_error_map in Ex. destruct (nth_error B x) as [b|] eqn:Eb; [|discriminate]. cbn in Ex. injection Ex as <-. f_equal; [lia|]. symmetry. apply nth_error_nth.
      rewrite E, nth_error_app2 by lia. replace (Datatypes.S k + x - length A)%nat with (Datatypes.S x) by lia. exact Eb. }
    rewrite E1, E2. replace (Z.of_nat (Datatypes.S k)) with (Z.of_nat k + 1) by lia. lia.
Qed.
