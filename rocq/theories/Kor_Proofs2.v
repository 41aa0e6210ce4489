(** * Proofs about [korman]: the main loop *)
From Coq Require Import ZArith List Lia Bool Permutation.
From Verif Require Import Base Py Dict Lists Lists2 Graph_Model Graph_Spec Graph_Proofs Trav_Model Color_Model Color_Spec Color_Proofs Kor_Model Kor_Proofs.
Import ListNotations.
Open Scope Z_scope.

Section Korman.
  Context (g : graph) (Hg : undirected g) (Hl : loop_free g) (Hi : forall u a, In (u, a) g -> a <> []).
  Context (ord : kst -> list Z -> list Z) (Ho : forall st l, Permutation (ord st l) l).
  Context (k : nat) (k1 : (1 <= k)%nat) (initial : list (Z * Z)).
  Let vs := vertices g.
  Let n := length vs.
  Let b := Z.of_nat n + 2.

  Lemma vs_In u : In u vs <-> vertex g u.
  Proof using All. unfold vs, vertices. rewrite (zsort_In). reflexivity. Qed.
  Lemma vs_NoDup : NoDup vs.
  Proof using All. unfold vs, vertices. eapply Permutation_NoDup; [symmetry; apply zsort_perm|apply Hg]. Qed.

  Lemma row u : vertex g u -> exists a, g_adj g u = Ret a /\ a <> [] /\ forall v, In v (dkeys a) <-> edge g u v.
  Proof using All.
    intros Hu. apply vertex_dget in Hu as (a & E). exists a. unfold g_adj, dgetM. rewrite E. split; [reflexivity|].
    split; [apply (Hi u), dget_Some_In, E|]. intros v. unfold edge, weight. rewrite E. apply dget_key.
  Qed.

  (** The colours of all vertices. *)
  Definition ctot (color : list (Z * Z)) : Prop := NoDup (dkeys color) /\ forall u, In u (dkeys color) <-> vertex g u.

  Lemma ctot_dset color s c : ctot color -> vertex g s -> ctot (dset color s c).
  Proof using Type.
    clear k1 ord Ho Hi.
    intros (A & B) Hs. split; [apply dset_NoDup, A|]. intros u. rewrite dkeys_dset_In, B. split; [intros [H| ->]; assumption|tauto].
  Qed.

  Lemma ctot_get color u : ctot color -> vertex g u -> dgetM color u = Ret (cf color u).
  Proof using All.
    intros (_ & B) Hu. apply B, dget_key in Hu as (c & E). unfold dgetM, cf. rewrite E. reflexivity.
  Qed.

  Lemma around_ok color u : ctot color -> vertex g u -> exists l, around g color u = Ret l /\ l <> [] /\ forall c, In c l <-> exists v, edge g u v /\ cf color v = c.
  Proof using All.
    intros C Hu. destruct (row u Hu) as (a & Ea & Na & R). unfold around. rewrite Ea. cbn [bind].
    rewrite (mapM_ret _ (cf color)).
    2:{ intros v Hv. apply ctot_get; [exact C|]. apply R in Hv. destruct Hg as (_ & _ & V & _). apply (V u v Hv). }
    exists (map (cf color) (dkeys a)). split; [reflexivity|]. split.
    - destruct a; [congruence|discriminate].
    - intros c. rewrite in_map_iff. split; intros (v & A & B); exists v; [split; [apply R; exact B|exact A]|split; [exact B|apply R; exact A]].
  Qed.

  (** *** The choice of the next vertex *)
  Lemma choose_step_ok color a d s u : ctot color -> vertex g u -> exists a' d' s',
    choose_step g color (a, d, s) u = Ret (a', d', s') /\ (s' = s \/ s' = Some u) /\ (a = 0 -> s' = Some u).
  Proof using All.
    intros C Hu. destruct (around_ok color u C Hu) as (l & El & Nl & _). destruct (row u Hu) as (r & Er & _). unfold choose_step. rewrite El, Er. cbn [bind].
    assert (P : 1 <= Z.of_nat (length (nodup Z.eq_dec l))).
    { destruct l as [|x l']; [congruence|]. assert (In x (nodup Z.eq_dec (x :: l'))) as H by (apply nodup_In; left; reflexivity).
      destruct (nodup Z.eq_dec (x :: l')); [destruct H|]. cbn [length]. lia. }
    destruct (Z.eqb_spec (Z.of_nat (length (nodup Z.eq_dec l))) a) as [E|E].
    - destruct (_ <? _); do 3 eexists; (split; [reflexivity|]); split; try lia; [right|left]; reflexivity.
    - destruct (Z.ltb_spec a (Z.of_nat (length (nodup Z.eq_dec l)))); do 3 eexists; (split; [reflexivity|]); split; try lia; try (intros _; reflexivity); [right|left]; reflexivity.
  Qed.

  Lemma choose_fold color : ctot color -> forall l a d s, (forall u, In u l -> vertex g u) ->
    exists a' d' s', foldM (choose_step g color) l (a, d, s) = Ret (a', d', s') /\ (s' = s \/ exists u, In u l /\ s' = Some u).
  Proof using All.
    intros C. induction l as [|x l IH]; intros a d s V; [do 3 eexists; split; [reflexivity|left; reflexivity]|].
    cbn [foldM]. destruct (choose_step_ok color a d s x C (V x (or_introl eq_refl))) as (a1 & d1 & s1 & E & S1 & _). rewrite E. cbn [bind].
    destruct (IH a1 d1 s1) as (a2 & d2 & s2 & E2 & S2); [intros u Hu; apply V; right; exact Hu|]. exists a2, d2, s2. split; [exact E2|].
    destruct S2 as [-> |(u & Hu & ->)]; [|right; exists u; split; [right; exact Hu|reflexivity]].
    destruct S1 as [-> | ->]; [left; reflexivity|right; exists x; split; [left|]; reflexivity].
  Qed.

  Lemma choose_ok color unc s : ctot color -> unc <> [] -> (forall u, In u unc -> vertex g u) -> exists u, choose g color unc s = Ret (Some u) /\ In u unc.
  Proof using All.
    intros C Ne V. destruct unc as [|x l]; [congruence|]. unfold choose. cbn [foldM].
    destruct (choose_step_ok color 0 0 s x C (V x (or_introl eq_refl))) as (a1 & d1 & s1 & E & _ & S1). rewrite E. cbn [bind]. rewrite (S1 eq_refl).
    destruct (choose_fold color C l a1 d1 (Some x)) as (a2 & d2 & s2 & E2 & S2); [intros u Hu; apply V; right; exact Hu|]. rewrite E2. cbn [bind].
    destruct S2 as [-> |(u & Hu & ->)]; [exists x|exists u]; (split; [reflexivity|]); [left; reflexivity|right; exact Hu].
  Qed.

  (** *** Invariants *)
  Definition oks (order : list (Z * Z)) (P : list Z) : Prop := forall i, (i < length P)%nat -> dget order (Z.of_nat i) = Some (nth i P 0).

  Lemma oks_app order P Q : oks order (P ++ Q) -> oks order P.
  Proof using All. intros H i L. rewrite H by (rewrite app_length; lia). rewrite app_nth1 by lia. reflexivity. Qed.

  Lemma oks_snoc order P s : oks order P -> oks (dset order (Z.of_nat (length P)) s) (P ++ [s]).
  Proof using g.
    clear k1 ord Ho.
    intros H i L. rewrite app_length in L. cbn [length] in L. rewrite dget_dset. destruct (Z.eqb_spec (Z.of_nat (length P)) (Z.of_nat i)) as [E|E].
    - apply Nat2Z.inj in E. subst i. rewrite nth_middle. reflexivity.
    - rewrite H by lia. rewrite app_nth1 by lia. reflexivity.
  Qed.

  (** The coloured vertices are P, in this order. *)
  Record base (P : list Z) (color : list (Z * Z)) (best : Z) : Prop := {
    b_tot : ctot color;
    b_dup : NoDup P;
    b_sub : forall u, In u P -> vertex g u;
    b_col : forall u, In u P -> 1 <= cf color u <= best /\ cf color u <= Z.of_nat n - 1;
    b_edge : forall u v, In u P -> In v P -> edge g u v -> cf color u <> cf color v;
    b_one : cf color (nth 0 P 0) = 1 }.

  Definition agree (f : Z -> Z) (color : list (Z * Z)) (P : list Z) : Prop := forall u, In u P -> f u = cf color u.

  (** There is a colouring that the search still has to come across, by giving a greater number to P[j]. *)
  Definition pend (color : list (Z * Z)) (P : list Z) (B : Z) : Prop :=
    exists f j, fine g B f /\ (k <= j < length P)%nat /\ agree f color (firstn j P) /\ cf color (nth j P 0) < f (nth j P 0) /\
      exists u, In u (firstn j P) /\ f (nth j P 0) <= cf color u + 1.

  Definition fresh (st : kst) (P : list Z) : Prop :=
    k_next st = true /\ k_idx st = Z.of_nat (length P) /\ (k <= length P < n)%nat /\ base P (k_color st) (k_best st) /\
    (forall u, ~ In u P -> cf (k_color st) u = 0) /\ oks (k_order st) P /\ NoDup (k_unc st) /\
    (forall u, In u (k_unc st) <-> vertex g u /\ ~ In u P) /\
    (forall B f, B <= k_best st -> fine g B f -> (exists f', fine g B f' /\ agree f' (k_color st) P) \/ pend (k_color st) P B).

  Definition trying (st : kst) (P : list Z) (s : Z) : Prop :=
    k_idx st = Z.of_nat (length P) /\ (k <= length P < n)%nat /\ base P (k_color st) (k_best st) /\
    vertex g s /\ ~ In s P /\ 0 <= cf (k_color st) s <= Z.of_nat n - 1 /\
    (forall u, ~ In u P -> u <> s -> cf (k_color st) u = 0) /\ oks (k_order st) (P ++ [s]) /\ NoDup (k_unc st) /\
    (forall u, In u (k_unc st) <-> vertex g u /\ ~ In u P /\ (u = s -> cf (k_color st) s = 0)) /\
    (forall B f, B <= k_best st -> fine g B f -> pend (k_color st) (P ++ [s]) B).

  Definition ended (st : kst) : Prop := k_idx st < Z.of_nat k /\ forall B f, B <= k_best st -> ~ fine g B f.

  (** The best colouring so far. *)
  Definition the_best (found : option (list (Z * Z))) : list (Z * Z) :=
    match found with Some d => d | None => map (fun vc => (fst vc, snd vc + 1)) initial end.
  Definition coloured (d : list (Z * Z)) (best : Z) : Prop :=
    ctot d /\ (forall u, vertex g u -> 1 <= cf d u <= best) /\ (forall u v, edge g u v -> cf d u <> cf d v).

  Definition kinv (st : kst) : Prop :=
    coloured (the_best (k_found st)) (k_best st) /\ k_best st <= Z.of_nat n /\
    ((exists P, fresh st P) \/ (exists P s, k_next st = false /\ k_s st = Some s /\ trying st P s) \/ ended st).

  (** *** Termination *)
  Definition prefix (order : list (Z * Z)) (m : Z) : list Z := map (cf order) (zrange 0 m).

  Lemma prefix_oks order P : oks order P -> prefix order (Z.of_nat (length P)) = P.
  Proof using All.
    induction P as [|s P IH] using rev_ind; intros H; [reflexivity|]. unfold prefix. rewrite app_length. cbn [length].
    replace (Z.of_nat (length P + 1)) with (Z.of_nat (length P) + 1) by lia. rewrite zrange_snoc by lia. rewrite map_app.
    fold (prefix order (Z.of_nat (length P))). rewrite IH by (apply oks_app in H; exact H). cbn [map]. f_equal. f_equal.
    unfold cf. rewrite H by (rewrite app_length; cbn [length]; lia). rewrite nth_middle. reflexivity.
  Qed.

  Definition tval (color : list (Z * Z)) (P : list Z) (s : Z) : Z :=
    (val b color (P ++ [s]) + 1) * b ^ (Z.of_nat n - Z.of_nat (length P) - 1) - 1.
  Definition fval (color : list (Z * Z)) (P : list Z) : Z := val b color P * b ^ (Z.of_nat n - Z.of_nat (length P)).

  Definition meas (st : kst) : Z :=
    if k_idx st <? Z.of_nat k then 0
    else if k_next st then b ^ Z.of_nat n - fval (k_color st) (prefix (k_order st) (k_idx st))
    else b ^ Z.of_nat n - tval (k_color st) (prefix (k_order st) (k_idx st)) (cf (k_order st) (k_idx st)).

  Lemma meas_fresh st P : fresh st P -> meas st = b ^ Z.of_nat n - fval (k_color st) P.
  Proof using All.
    intros (N & I & L & _ & _ & O & _). unfold meas. rewrite I, N. destruct (Z.ltb_spec (Z.of_nat (length P)) (Z.of_nat k)); [lia|].
    rewrite prefix_oks by exact O. reflexivity.
  Qed.

  Lemma meas_trying st P s : k_next st = false -> trying st P s -> meas st = b ^ Z.of_nat n - tval (k_color st) P s.
  Proof using All.
    intros N (I & L & _ & _ & _ & _ & _ & O & _). unfold meas. rewrite I, N. destruct (Z.ltb_spec (Z.of_nat (length P)) (Z.of_nat k)); [lia|].
    rewrite prefix_oks by (apply oks_app in O; exact O). unfold cf at 1. rewrite O by (rewrite app_length; cbn [length]; lia). rewrite nth_middle. reflexivity.
  Qed.

  Lemma b_gt : 1 < b. Proof using All. unfold b. lia. Qed.

  Lemma tval_bound st P s : trying st P s -> 0 <= tval (k_color st) P s < b ^ Z.of_nat n.
  Proof using All.
    intros (I & L & B & Vs & Ns & Cs & _). unfold tval.
    assert (V := val_bound b b_gt (k_color st) (P ++ [s])). rewrite app_length in V. cbn [length] in V.
    assert (X : 0 < b ^ (Z.of_nat n - Z.of_nat (length P) - 1)) by (apply Z.pow_pos_nonneg; [assert (H := b_gt); lia|lia]).
    replace (b ^ Z.of_nat n) with (b ^ Z.of_nat (length P + 1) * b ^ (Z.of_nat n - Z.of_nat (length P) - 1)) by (rewrite <- Z.pow_add_r by lia; f_equal; lia).
    assert (W : 0 <= val b (k_color st) (P ++ [s]) < b ^ Z.of_nat (length P + 1)).
    { apply V. intros u Hu. apply in_app_iff in Hu as [Hu|[<-|[]]]; [destruct (b_col _ _ _ B u Hu)|]; unfold b; lia. }
    clear - W X. nia.
  Qed.

  Lemma fval_bound st P : fresh st P -> 0 <= fval (k_color st) P < b ^ Z.of_nat n.
  Proof using All.
    intros (N & I & L & B & _). unfold fval.
    assert (X : 0 < b ^ (Z.of_nat n - Z.of_nat (length P))) by (apply Z.pow_pos_nonneg; [assert (H := b_gt); lia|lia]).
    replace (b ^ Z.of_nat n) with (b ^ Z.of_nat (length P) * b ^ (Z.of_nat n - Z.of_nat (length P))) by (rewrite <- Z.pow_add_r by lia; f_equal; lia).
    assert (W : 0 <= val b (k_color st) P < b ^ Z.of_nat (length P)).
    { apply val_bound; [apply b_gt|]. intros u Hu. destruct (b_col _ _ _ B u Hu). unfold b. lia. }
    clear - W X. nia.
  Qed.

  (** *** From a fresh state to the chosen vertex *)
  Lemma max_colour color P : P <> [] -> exists u, In u P /\ forall v, In v P -> cf color v <= cf color u.
  Proof using All.
    induction P as [|x P IH]; [congruence|]. intros _. destruct P as [|y P].
    - exists x. split; [left; reflexivity|]. intros v [<-|[]]. lia.
    - destruct IH as (u & Hu & M); [discriminate|]. destruct (Z_le_gt_dec (cf color u) (cf color x)).
      + exists x. split; [left; reflexivity|]. intros v [<-|Hv]; [lia|]. specialize (M v Hv). lia.
      + exists u. split; [right; exact Hu|]. intros v [<-|Hv]; [lia|]. apply M, Hv.
  Qed.

  Lemma fresh_trying st P : fresh st P -> exists s, choose g (k_color st) (ord st (k_unc st)) (k_s st) = Ret (Some s) /\
    let st' := KS (k_idx st) false (Some s) (k_sc st) (k_color st) (dset (k_order st) (k_idx st) s) (k_unc st) (k_best st) (k_found st) in
    trying st' P s /\ fval (k_color st) P <= tval (k_color st) P s.
  Proof using All.
    intros (N & I & L & B & Z0 & O & D & U & Pd).
    assert (Ne : k_unc st <> []).
    { intros E. assert (length vs <= length P)%nat; [|fold n in H; lia]. apply NoDup_incl_length; [apply vs_NoDup|].
      intros u Hu. apply vs_In in Hu. destruct (in_dec Z.eq_dec u P) as [H|H]; [exact H|]. exfalso. rewrite E in U. apply (proj2 (U u)). split; assumption. }
    destruct (choose_ok (k_color st) (ord st (k_unc st)) (k_s st)) as (s & Es & Hs).
    - apply B.
    - intros E. apply Ne, Permutation_nil. rewrite <- E. apply Ho.
    - intros u Hu. apply (Permutation_in _ (Ho st (k_unc st))) in Hu. apply U in Hu. apply Hu.
    - apply (Permutation_in _ (Ho st (k_unc st))), U in Hs as (Vs & Ns).
      exists s. split; [exact Es|]. cbv zeta. assert (Z1 : cf (k_color st) s = 0) by (apply Z0, Ns). split.
      + unfold trying. cbn [k_idx k_next k_s k_sc k_color k_order k_unc k_best k_found].
        split; [exact I|]. split; [exact L|]. split; [exact B|]. split; [exact Vs|]. split; [exact Ns|]. split; [lia|].
        split; [intros u Hu _; apply Z0, Hu|]. split; [rewrite I; apply oks_snoc, O|]. split; [exact D|].
        split; [intros u; rewrite U; tauto|]. intros B0 f HB Hf.
        destruct (Pd B0 f HB Hf) as [(f' & F' & A)|(f' & j & F' & J & A & C & w & Hw & Cw)].
        * destruct (max_colour (k_color st) P) as (u & Hu & M); [destruct P; [cbn in L; lia|discriminate]|].
          assert (Fs := proj1 F' s Vs). assert (Fu := A u Hu). assert (Cu := proj1 (b_col _ _ _ B u Hu)).
          set (m := cf (k_color st) u) in *.
          assert (exists f2, fine g B0 f2 /\ agree f2 (k_color st) P /\ 0 < f2 s <= m + 1) as (f2 & F2 & A2 & S2).
          { destruct (Z_le_gt_dec (f' s) (m + 1)) as [H|H]; [exists f'; split; [exact F'|]; split; [exact A|lia]|].
            exists (fun v => swap (f' s) (m + 1) (f' v)). split; [apply swap_fine; [exact Fs|lia|exact F']|]. split.
            - intros v Hv. assert (Q := M v Hv). rewrite (A v Hv). unfold swap. destruct (Z.eqb_spec (cf (k_color st) v) (f' s)); [lia|].
              destruct (Z.eqb_spec (cf (k_color st) v) (m + 1)); [lia|reflexivity].
            - unfold swap. rewrite Z.eqb_refl. lia. }
          exists f2, (length P). split; [exact F2|]. split; [rewrite app_length; cbn [length]; lia|].
          rewrite firstn_app, Nat.sub_diag, firstn_all, app_nil_r, nth_middle. split; [exact A2|]. split; [lia|]. exists u. split; [exact Hu|]. fold m. lia.
        * exists f', j. split; [exact F'|]. split; [rewrite app_length; lia|]. rewrite firstn_app, app_nth1 by lia.
          replace (j - length P)%nat with 0%nat by lia. rewrite app_nil_r. split; [exact A|]. split; [exact C|]. exists w. split; [exact Hw|exact Cw].
      + unfold fval, tval. rewrite val_snoc, Z1.
        assert (X : 0 < b ^ (Z.of_nat n - Z.of_nat (length P) - 1)) by (apply Z.pow_pos_nonneg; [assert (H := b_gt); lia|lia]).
        replace (b ^ (Z.of_nat n - Z.of_nat (length P))) with (b * b ^ (Z.of_nat n - Z.of_nat (length P) - 1)) by (rewrite <- Z.pow_succ_r by lia; f_equal; lia).
        clear - X. nia.
  Qed.

  (** *** Resetting *)
  Lemma reset_ok order : forall Q a color unc, ctot color -> NoDup unc -> (forall u, In u Q -> vertex g u) ->
    (forall i, (i < length Q)%nat -> dget order (a + Z.of_nat i) = Some (nth i Q 0)) ->
    exists color' unc', foldM (reset order) (zrange a (a + Z.of_nat (length Q))) (color, unc) = Ret (color', unc') /\ ctot color' /\ NoDup unc' /\
      (forall u, In u Q -> cf color' u = 0) /\ (forall u, ~ In u Q -> cf color' u = cf color u) /\ (forall u, In u unc' <-> In u unc \/ In u Q).
  Proof using All.
    induction Q as [|x Q IH]; intros a color unc C D V O.
    - cbn [length]. rewrite zrange_nil by lia. exists color, unc. split; [reflexivity|]. split; [exact C|]. split; [exact D|].
      split; [intros u []|]. split; [reflexivity|]. intros u. cbn. tauto.
    - cbn [length]. rewrite zrange_cons by lia. cbn [foldM]. unfold reset at 1, dgetM.
      assert (O0 := O 0%nat ltac:(cbn; lia)). cbn [Z.of_nat nth] in O0. rewrite Z.add_0_r in O0. rewrite O0. cbn [bind fst snd].
      replace (a + Z.of_nat (S (length Q))) with (a + 1 + Z.of_nat (length Q)) by lia.
      destruct (IH (a + 1) (dset color x 0) (set_add unc x)) as (color' & unc' & E & C' & D' & Z1 & Z2 & U).
      + apply ctot_dset; [exact C|]. apply V. left. reflexivity.
      + apply set_add_NoDup, D.
      + intros u Hu. apply V. right. exact Hu.
      + intros i Li. replace (a + 1 + Z.of_nat i) with (a + Z.of_nat (S i)) by lia. rewrite O by (cbn; lia). reflexivity.
      + exists color', unc'. split; [exact E|]. split; [exact C'|]. split; [exact D'|]. split; [|split].
        * intros u [<-|Hu]; [|apply Z1, Hu]. destruct (in_dec Z.eq_dec x Q) as [H|H]; [apply Z1, H|]. rewrite Z2 by exact H. rewrite cf_dset, Z.eqb_refl. reflexivity.
        * intros u Hu. cbn [In] in Hu. rewrite Z2 by tauto. rewrite cf_dset. destruct (Z.eqb_spec x u); [tauto|reflexivity].
        * intros u. rewrite U, set_add_In. cbn [In]. split; [intros [[H| ->]|H]|intros [H|[->|H]]]; tauto.
  Qed.

  Lemma first_at_ok color order best : forall fuel Q a, ctot color -> (forall u, In u Q -> vertex g u) ->
    (forall i, (i < length Q)%nat -> dget order (a + Z.of_nat i) = Some (nth i Q 0)) -> (exists u, In u Q /\ best <= cf color u) -> (length Q < fuel)%nat ->
    exists A x R, Q = A ++ x :: R /\ first_at fuel color order best a = Ret (a + Z.of_nat (length A)) /\ best <= cf color x /\ forall u, In u A -> cf color u < best.
  Proof using All.
    induction fuel as [|f IH]; intros Q a C V O (u & Hu & Bu) L; [lia|]. destruct Q as [|y Q]; [destruct Hu|]. cbn [first_at].
    assert (O0 := O 0%nat ltac:(cbn; lia)). cbn [Z.of_nat nth] in O0. rewrite Z.add_0_r in O0. replace (dgetM order a) with (Ret y) by (unfold dgetM; rewrite O0; reflexivity). cbn [bind].
    rewrite (ctot_get color y C) by (apply V; left; reflexivity). cbn [bind]. destruct (Z.ltb_spec (cf color y) best) as [H|H].
    - destruct (IH Q (a + 1) C) as (A & x & R & E & F & Bx & S1).
      + intros v Hv. apply V. right. exact Hv.
      + intros i Li. replace (a + 1 + Z.of_nat i) with (a + Z.of_nat (S i)) by lia. rewrite O by (cbn; lia). reflexivity.
      + exists u. split; [|exact Bu]. destruct Hu as [<-|Hu]; [lia|exact Hu].
      + cbn in L. lia.
      + exists (y :: A), x, R. split; [rewrite E; reflexivity|]. split; [rewrite F; cbn [length]; f_equal; lia|]. split; [exact Bx|]. intros v [<-|Hv]; [exact H|apply S1, Hv].
    - exists [], y, Q. split; [reflexivity|]. split; [cbn; f_equal; lia|]. split; [exact H|]. intros v [].
  Qed.

  (** *** The vertex s gets the first possible colour c *)
  Definition nbcol (color : list (Z * Z)) (s : Z) (adj : list Z) : Prop := forall x, In x adj <-> exists v, edge g s v /\ cf color v = x.

  Lemma least color P best s adj c B f : base P color best -> ~ In s P -> (forall u, ~ In u P -> u <> s -> cf color u = 0) -> 0 <= cf color s -> nbcol color s adj ->
    (forall x, cf color s < x < c -> In x adj) -> fine g B f -> agree f color P -> cf color s < f s -> c <= f s.
  Proof using All.
    intros Bs Ns Z0 C0 A L F Ag G. destruct (Z_lt_le_dec (f s) c) as [H|H]; [|exact H]. exfalso.
    destruct (proj1 (A (f s)) (L (f s) (conj G H))) as (v & E & Ev).
    destruct (in_dec Z.eq_dec v P) as [Hv|Hv].
    - apply (proj2 F s v E). rewrite (Ag v Hv). symmetry. exact Ev.
    - destruct (Z.eq_dec v s) as [->|D]; [destruct E as (w & E); rewrite Hl in E; discriminate|]. rewrite (Z0 v Hv D) in Ev. lia.
  Qed.

  Lemma pend_early color color' P Q B f j : fine g B f -> (k <= j < length P)%nat -> agree f color (firstn j P) -> cf color (nth j P 0) < f (nth j P 0) ->
    (exists u, In u (firstn j P) /\ f (nth j P 0) <= cf color u + 1) -> (forall u, In u P -> cf color' u = cf color u) -> pend color' (P ++ Q) B.
  Proof using All.
    intros F J A C (w & Hw & Cw) X. exists f, j. split; [exact F|]. split; [rewrite app_length; lia|]. rewrite firstn_app, app_nth1 by lia.
    replace (j - length P)%nat with 0%nat by lia. cbn [firstn]. rewrite app_nil_r.
    assert (Xn : cf color' (nth j P 0) = cf color (nth j P 0)) by (apply X, nth_In; lia). rewrite Xn.
    split; [intros u Hu; rewrite X by (eapply firstn_In; exact Hu); apply A, Hu|]. split; [exact C|]. exists w. split; [exact Hw|].
    rewrite X by (eapply firstn_In; exact Hw). exact Cw.
  Qed.

  Lemma pend_split color P s B : pend color (P ++ [s]) B ->
    (exists f, fine g B f /\ agree f color P /\ cf color s < f s /\ exists u, In u P /\ f s <= cf color u + 1) \/
    (exists f j, fine g B f /\ (k <= j < length P)%nat /\ agree f color (firstn j P) /\ cf color (nth j P 0) < f (nth j P 0) /\ exists u, In u (firstn j P) /\ f (nth j P 0) <= cf color u + 1).
  Proof using All.
    intros (f & j & F & J & A & C & W). rewrite app_length in J. cbn [length] in J. destruct (Nat.eq_dec j (length P)) as [->|D].
    - left. exists f. rewrite firstn_app, Nat.sub_diag, firstn_all, app_nil_r, nth_middle in *. tauto.
    - right. exists f, j. rewrite firstn_app, app_nth1 in * by lia. replace (j - length P)%nat with 0%nat in * by lia. cbn [firstn] in *. rewrite app_nil_r in *.
      split; [exact F|]. split; [lia|]. tauto.
  Qed.

  Lemma accept color P s best adj c : base P color best -> P <> [] -> vertex g s -> ~ In s P -> (forall u, ~ In u P -> u <> s -> cf color u = 0) -> 0 <= cf color s -> nbcol color s adj ->
    ~ In c adj -> cf color s < c -> (forall x, cf color s < x < c -> In x adj) -> c < best -> best <= Z.of_nat n ->
    (forall B f, B <= best -> fine g B f -> pend color (P ++ [s]) B) ->
    base (P ++ [s]) (dset color s c) best /\
    (forall B f, B <= best -> fine g B f -> (exists f', fine g B f' /\ agree f' (dset color s c) (P ++ [s])) \/ pend (dset color s c) (P ++ [s]) B).
  Proof using All.
    intros Bs Ne Vs Ns Z0 C0 A Nc Gc L Lb Bn Pd.
    assert (Same : forall u, In u P -> cf (dset color s c) u = cf color u).
    { intros u Hu. rewrite cf_dset. destruct (Z.eqb_spec s u) as [->|]; [contradiction|reflexivity]. }
    assert (Cs : cf (dset color s c) s = c) by (rewrite cf_dset, Z.eqb_refl; reflexivity).
    assert (Nadj : forall v, edge g s v -> cf color v <> c) by (intros v E Ev; apply Nc, A; exists v; split; assumption).
    split.
    - constructor.
      + apply ctot_dset; [apply Bs|exact Vs].
      + apply NoDup_app_intro; [apply Bs|constructor; [intros []|constructor]|]. intros y Hy [->|[]]. contradiction.
      + intros u Hu. apply in_app_iff in Hu as [Hu|[<-|[]]]; [apply (b_sub _ _ _ Bs u Hu)|exact Vs].
      + intros u Hu. apply in_app_iff in Hu as [Hu|[<-|[]]]; [rewrite Same by exact Hu; apply (b_col _ _ _ Bs u Hu)|rewrite Cs; lia].
      + intros u v Hu Hv E. apply in_app_iff in Hu as [Hu|[<-|[]]]; apply in_app_iff in Hv as [Hv|[<-|[]]].
        * rewrite !Same by assumption. apply (b_edge _ _ _ Bs u v Hu Hv E).
        * rewrite Cs, Same by exact Hu. apply Nadj. destruct E as (w & E). exists w. destruct Hg as (_ & _ & _ & Sy). rewrite Sy. exact E.
        * rewrite Cs, Same by exact Hv. intros H. apply (Nadj v E). symmetry. exact H.
        * destruct E as (w & E). rewrite Hl in E. discriminate.
      + assert (In (nth 0 P 0) P) as H by (apply nth_In; destruct P; [congruence|cbn; lia]).
        rewrite app_nth1 by (destruct P; [congruence|cbn; lia]). rewrite Same by exact H. apply Bs.
    - intros B f HB Hf. destruct (pend_split color P s B (Pd B f HB Hf)) as [(f' & F & Ag & G & u & Hu & Cu)|(f' & j & F & J & Ag & G & W)].
      + assert (Q := least color P best s adj c B f' Bs Ns Z0 C0 A L F Ag G). destruct (Z.eq_dec (f' s) c) as [E|E].
        * left. exists f'. split; [exact F|]. intros v Hv. apply in_app_iff in Hv as [Hv|[<-|[]]]; [rewrite Same by exact Hv; apply Ag, Hv|rewrite Cs; exact E].
        * right. exists f', (length P). split; [exact F|]. assert (J : (k <= length P)%nat).
          { destruct (Pd B f HB Hf) as (? & ? & _ & J & _). rewrite app_length in J. cbn [length] in J. lia. }
          split; [rewrite app_length; cbn [length]; lia|]. rewrite firstn_app, Nat.sub_diag, firstn_all, app_nil_r, nth_middle, Cs.
          split; [intros v Hv; rewrite Same by exact Hv; apply Ag, Hv|]. split; [lia|]. exists u. split; [exact Hu|]. rewrite Same by exact Hu. exact Cu.
      + right. eapply pend_early; eassumption.
  Qed.

  (** *** Backtracking to the last coloured vertex *)
  Lemma back st P s adj c sc : trying st P s -> nbcol (k_color st) s adj -> (forall x, cf (k_color st) s < x < c -> In x adj) ->
    (k_best st <= c \/ forall u, In u P -> cf (k_color st) u + 1 < c) ->
    exists s0, dgetM (k_order st) (k_idx st - 1) = Ret s0 /\
    let st' := KS (k_idx st - 1) false (Some s0) sc (dset (k_color st) s 0) (k_order st) (set_add (k_unc st) s) (k_best st) (k_found st) in
    ((exists P0, trying st' P0 s0) \/ ended st') /\ 0 <= meas st' < b ^ Z.of_nat n - tval (k_color st) P s.
  Proof using All.
    intros T A L R. assert (TB := tval_bound st P s T). destruct T as (I & LP & Bs & Vs & Ns & C0 & Z0 & O & D & U & Pd).
    assert (NeP : P <> []) by (destruct P; [cbn in LP; lia|discriminate]).
    destruct (exists_last NeP) as (P0 & s0 & EP). exists s0.
    assert (LP0 : length P = S (length P0)) by (rewrite EP, app_length; cbn [length]; lia).
    split.
    { unfold dgetM. rewrite I. replace (Z.of_nat (length P) - 1) with (Z.of_nat (length P0)) by lia.
      rewrite O by (rewrite app_length; cbn [length]; lia). rewrite EP, <- app_assoc. cbn [app]. rewrite nth_middle. reflexivity. }
    set (st' := KS _ _ _ _ _ _ _ _ _). cbv zeta.
    assert (Same : forall u, In u P -> cf (dset (k_color st) s 0) u = cf (k_color st) u).
    { intros u Hu. rewrite cf_dset. destruct (Z.eqb_spec s u) as [->|]; [contradiction|reflexivity]. }
    assert (Pd' : forall B f, B <= k_best st -> fine g B f -> pend (dset (k_color st) s 0) P B).
    { intros B f HB Hf. destruct (pend_split _ P s B (Pd B f HB Hf)) as [(f' & F & Ag & G & u & Hu & Cu)|(f' & j & F & J & Ag & G & W)].
      - exfalso. assert (Q := least _ P _ s adj c B f' Bs Ns Z0 (proj1 C0) A L F Ag G). assert (Fs := proj1 F s Vs).
        destruct R as [R|R]; [lia|]. specialize (R u Hu). lia.
      - rewrite <- (app_nil_r P). eapply pend_early; eassumption. }
    assert (HP0 : forall u, In u P0 -> In u P) by (intros u Hu; rewrite EP; apply in_app_iff; left; exact Hu).
    assert (Hs0 : In s0 P) by (rewrite EP; apply in_app_iff; right; left; reflexivity).
    assert (Ns0 : ~ In s0 P0).
    { intros H. assert (DP := b_dup _ _ _ Bs). rewrite EP in DP. apply NoDup_remove_2 in DP. apply DP. rewrite app_nil_r. exact H. }
    destruct (Compare_dec.le_lt_dec k (length P0)) as [HK|HK].
    - assert (T' : trying st' P0 s0).
      { unfold trying, st'. cbn [k_idx k_next k_s k_sc k_color k_order k_unc k_best k_found].
        split; [lia|]. split; [lia|]. split.
        { constructor.
          - apply ctot_dset; [apply Bs|exact Vs].
          - assert (DP := b_dup _ _ _ Bs). rewrite EP in DP. apply NoDup_remove_1 in DP. rewrite app_nil_r in DP. exact DP.
          - intros u Hu. apply (b_sub _ _ _ Bs). apply HP0, Hu.
          - intros u Hu. rewrite Same by (apply HP0, Hu). apply (b_col _ _ _ Bs). apply HP0, Hu.
          - intros u v Hu Hv E. rewrite !Same by (apply HP0; assumption). apply (b_edge _ _ _ Bs); [apply HP0, Hu|apply HP0, Hv|exact E].
          - assert (nth 0 P0 0 = nth 0 P 0) as E by (rewrite EP, app_nth1 by lia; reflexivity).
            rewrite E, Same by (apply nth_In; lia). apply Bs. }
        split; [apply (b_sub _ _ _ Bs), Hs0|]. split; [exact Ns0|]. rewrite (Same s0 Hs0).
        assert (C1 := b_col _ _ _ Bs s0 Hs0). split; [lia|]. split.
        { intros u Hu Du. rewrite cf_dset. destruct (Z.eqb_spec s u) as [|Ds]; [reflexivity|]. apply Z0; [|congruence].
          rewrite EP, in_app_iff. cbn [In]. intros [H|[H|[]]]; [contradiction|congruence]. }
        split; [rewrite <- EP; apply oks_app in O; exact O|]. split; [apply set_add_NoDup, D|]. split.
        { intros u. rewrite set_add_In, U. split.
          - intros [(Vu & Nu & _)| ->].
            + split; [exact Vu|]. split; [intros H; apply Nu, HP0, H|]. intros ->. contradiction.
            + split; [exact Vs|]. split; [intros H; apply Ns, HP0, H|]. intros ->. contradiction.
          - intros (Vu & Nu & H0). destruct (Z.eq_dec u s) as [->|Du]; [right; reflexivity|]. left. split; [exact Vu|]. split; [|congruence].
            rewrite EP, in_app_iff. cbn [In]. intros [H|[H|[]]]; [contradiction|]. specialize (H0 (eq_sym H)). lia. }
        intros B f HB Hf. rewrite <- EP. apply (Pd' B f HB Hf). }
      split; [left; exists P0; exact T'|].
      assert (M := meas_trying st' P0 s0 eq_refl T'). assert (TB' := tval_bound st' P0 s0 T'). rewrite M. split; [lia|].
      assert (tval (k_color st) P s < tval (k_color st') P0 s0); [|lia].
      unfold st'. cbn [k_color]. unfold tval. rewrite <- EP, val_snoc. rewrite (val_ext b _ (k_color st) P Same).
      replace (Z.of_nat n - Z.of_nat (length P0) - 1) with (Z.succ (Z.of_nat n - Z.of_nat (length P) - 1)) by lia. rewrite Z.pow_succ_r by lia.
      assert (X : 0 < b ^ (Z.of_nat n - Z.of_nat (length P) - 1)) by (apply Z.pow_pos_nonneg; [assert (H := b_gt); lia|lia]).
      assert (Y : cf (k_color st) s + 1 < b) by (unfold b; lia). clear - X Y. nia.
    - split.
      + right. unfold ended, st'. cbn [k_idx k_best]. split; [lia|]. intros B f HB Hf. destruct (Pd' B f HB Hf) as (f' & j & _ & J & _). lia.
      + unfold meas, st'. cbn [k_idx]. destruct (Z.ltb_spec (k_idx st - 1) (Z.of_nat k)); lia.
  Qed.

  (** *** All vertices are coloured *)
  Lemma edge_exists : g <> [] -> exists u v, edge g u v.
  Proof using All.
    intros Ne. destruct g as [|(u, a) g'] eqn:E; [congruence|]. rewrite <- E in *. assert (In (u, a) g) as H by (rewrite E; left; reflexivity).
    assert (Ea := dget_In g u a (proj1 Hg) H). destruct a as [|(v, w) a']; [exfalso; apply (Hi u [] H); reflexivity|].
    exists u, v, w. unfold weight. rewrite Ea. cbn [dget]. rewrite Z.eqb_refl. reflexivity.
  Qed.

  Lemma full P : NoDup P -> (forall u, In u P -> vertex g u) -> length P = n -> forall u, vertex g u -> In u P.
  Proof using All.
    intros D V L u Hu. apply vs_In in Hu. revert u Hu. apply NoDup_length_incl; [exact D|unfold n in L; lia|]. intros u H. apply vs_In, V, H.
  Qed.

  Lemma complete_round P color order unc best sc found : base P color best -> length P = n -> (k <= n)%nat -> oks order P -> NoDup unc -> (forall u, ~ In u unc) -> best <= Z.of_nat n ->
    (forall B f, B <= best -> fine g B f -> (exists f', fine g B f' /\ agree f' color P) \/ pend color P B) ->
    exists l best1 j color2 unc2 s0, mapM (dgetM color) vs = Ret l /\ py_max l = Ret best1 /\ first_at (S (length vs)) color order best1 0 = Ret j /\
      foldM (reset order) (zrange j (Z.of_nat (length vs))) (color, unc) = Ret (color2, unc2) /\ dgetM order (j - 1) = Ret s0 /\
      let st' := KS (j - 1) false (Some s0) sc color2 order unc2 best1 found in
      best1 <= best /\ coloured color best1 /\ ((exists P0, trying st' P0 s0) \/ ended st') /\ 0 <= meas st' < b ^ Z.of_nat n - val b color P + 1.
  Proof using All.
    intros Bs LP Kn O D U0 Bn Pd. assert (All := full P (b_dup _ _ _ Bs) (b_sub _ _ _ Bs) LP).
    exists (map (cf color) vs).
    assert (NeP : P <> []) by (destruct P; [cbn in LP; lia|discriminate]).
    assert (Nev : map (cf color) vs <> []) by (intros E; apply (f_equal (@length Z)) in E; rewrite map_length in E; fold n in E; cbn in E; lia).
    destruct (py_max_ok _ Nev) as (best1 & Em & Hm & Mm). exists best1.
    apply in_map_iff in Hm as (um & Eum & Hum). apply vs_In in Hum.
    assert (Mx : forall u, vertex g u -> cf color u <= best1) by (intros u Hu; apply Mm, in_map, vs_In, Hu).
    destruct (first_at_ok color order best1 (S (length vs)) P 0 (b_tot _ _ _ Bs) (b_sub _ _ _ Bs)) as (A & x & R & EP & Ej & Bx & Lt).
    { intros i Hi'. apply O, Hi'. }
    { exists um. split; [apply All, Hum|lia]. }
    { unfold n in LP. lia. }
    assert (LA : (length A + S (length R) = n)%nat) by (rewrite <- LP, EP, app_length; reflexivity).
    assert (Vx : vertex g x) by (apply (b_sub _ _ _ Bs); rewrite EP; apply in_app_iff; right; left; reflexivity).
    assert (best2 : 2 <= best1).
    { assert (g <> []) as Ne by (intros E; unfold vertex in Vx; rewrite E in Vx; destruct Vx).
      destruct (edge_exists Ne) as (u & v & E). assert (Vu := edge_vertex g u v E). assert (Vv : vertex g v) by (destruct Hg as (_ & _ & V & _); apply (V u v E)).
      assert (Q := b_edge _ _ _ Bs u v (All u Vu) (All v Vv) E). assert (Q1 := b_col _ _ _ Bs u (All u Vu)). assert (Q2 := b_col _ _ _ Bs v (All v Vv)).
      specialize (Mx u Vu) as M1. specialize (Mx v Vv) as M2. lia. }
    assert (NeA : A <> []).
    { intros EA. assert (Q := b_one _ _ _ Bs). rewrite EP, EA in Q. cbn in Q. lia. }
    destruct (exists_last NeA) as (P0 & s0 & EA).
    assert (LP0 : length A = S (length P0)) by (rewrite EA, app_length; cbn [length]; lia).
    exists (Z.of_nat (length A)).
    destruct (reset_ok order (x :: R) (Z.of_nat (length A)) color unc (b_tot _ _ _ Bs) D) as (color2 & unc2 & Er & C2 & D2 & Z1 & Z2 & U2).
    { intros u Hu. apply (b_sub _ _ _ Bs). rewrite EP. apply in_app_iff. right. exact Hu. }
    { intros i Hi'. replace (Z.of_nat (length A) + Z.of_nat i) with (Z.of_nat (length A + i)) by lia. rewrite O by (rewrite LP; cbn [length] in Hi'; lia).
      rewrite EP, app_nth2_plus. reflexivity. }
    exists color2, unc2, s0. split.
    { apply mapM_ret. intros u Hu. apply ctot_get; [apply Bs|apply vs_In, Hu]. }
    split; [exact Em|]. split; [exact Ej|].
    split; [rewrite <- Er; f_equal; f_equal; cbn [length]; unfold n in LA; lia|].
    split.
    { unfold dgetM. replace (Z.of_nat (length A) - 1) with (Z.of_nat (length P0)) by lia. rewrite O by lia. rewrite EP, EA, <- app_assoc. cbn [app]. rewrite nth_middle. reflexivity. }
    set (st' := KS _ _ _ _ _ _ _ _ _). cbv zeta.
    assert (DP := b_dup _ _ _ Bs). rewrite EP in DP.
    assert (HA : forall u, In u A -> In u P /\ ~ In u (x :: R)).
    { intros u Hu. split; [rewrite EP; apply in_app_iff; left; exact Hu|]. intros H. clear - DP Hu H. induction A as [|y A IH]; [destruct Hu|].
      cbn in DP. inversion DP as [|? ? N1 N2]. subst. destruct Hu as [->|Hu]; [apply N1, in_app_iff; right; exact H|apply IH; assumption]. }
    assert (Same : forall u, In u A -> cf color2 u = cf color u) by (intros u Hu; apply Z2, HA, Hu).
    assert (Hs0 : In s0 A) by (rewrite EA; apply in_app_iff; right; left; reflexivity).
    assert (HP0 : forall u, In u P0 -> In u A) by (intros u Hu; rewrite EA; apply in_app_iff; left; exact Hu).
    assert (DA : NoDup (P0 ++ [s0])) by (rewrite <- EA; clear - DP; induction A as [|y A IH]; [constructor|]; inversion DP as [|? ? N1 N2]; subst; constructor; [intros H; apply N1, in_app_iff; left; exact H|apply IH, N2]).
    assert (Ns0 : ~ In s0 P0) by (intros H; apply NoDup_remove_2 in DA; apply DA; rewrite app_nil_r; exact H).
    split; [rewrite <- Eum; apply (b_col _ _ _ Bs um), All, Hum|].
    assert (B12 : best1 <= best) by (rewrite <- Eum; apply (b_col _ _ _ Bs um), All, Hum).
    split.
    { split; [apply Bs|]. split; [intros u Hu; split; [apply (b_col _ _ _ Bs u (All u Hu))|apply Mx, Hu]|].
      intros u v E. apply (b_edge _ _ _ Bs); [apply All, (edge_vertex g u v E)|apply All|exact E]. destruct Hg as (_ & _ & V & _). apply (V u v E). }
    assert (Pd' : forall B f, B <= best1 -> fine g B f -> pend color2 A B).
    { intros B f HB Hf. destruct (Pd B f ltac:(lia) Hf) as [(f' & F & Ag)|(f' & j & F & J & Ag & G & u & Hu & Cu)].
      - exfalso. assert (Q := proj1 F um Hum). rewrite (Ag um (All um Hum)) in Q. lia.
      - assert (Jx : (j < length A)%nat).
        { destruct (Compare_dec.le_lt_dec (length A) j) as [H|H]; [|exact H]. exfalso.
          assert (Q := proj1 F x Vx). destruct (Nat.eq_dec j (length A)) as [->|Dj].
          - rewrite EP, nth_middle in G. lia.
          - rewrite (Ag x) in Q; [lia|]. assert (In (nth (length A) P 0) (firstn j P)) as W by (apply firstn_nth_In; lia). rewrite EP in W at 1. rewrite nth_middle in W. exact W. }
        rewrite EP in Ag, Hu, G, Cu. rewrite firstn_app in Ag, Hu. rewrite app_nth1 in G, Cu by lia. replace (j - length A)%nat with 0%nat in * by lia. cbn [firstn] in *. rewrite app_nil_r in *.
        rewrite <- (app_nil_r A). eapply pend_early; [exact F|split; [apply J|exact Jx]|exact Ag|exact G|exists u; split; [exact Hu|exact Cu]|exact Same]. }
    destruct (Compare_dec.le_lt_dec k (length P0)) as [HK|HK].
    - assert (T' : trying st' P0 s0).
      { unfold trying, st'. cbn [k_idx k_next k_s k_sc k_color k_order k_unc k_best k_found].
        split; [lia|]. split; [lia|]. split.
        { constructor.
          - exact C2.
          - apply NoDup_remove_1 in DA. rewrite app_nil_r in DA. exact DA.
          - intros u Hu. apply (b_sub _ _ _ Bs). apply HA, HP0, Hu.
          - intros u Hu. rewrite Same by (apply HP0, Hu). assert (Q := b_col _ _ _ Bs u (proj1 (HA u (HP0 u Hu)))). assert (Q2 := Lt u (HP0 u Hu)). lia.
          - intros u v Hu Hv E. rewrite !Same by (apply HP0; assumption). apply (b_edge _ _ _ Bs); [apply HA, HP0, Hu|apply HA, HP0, Hv|exact E].
          - assert (nth 0 P0 0 = nth 0 P 0) as E by (rewrite EP, EA, <- app_assoc, app_nth1 by lia; reflexivity).
            assert (In (nth 0 P0 0) P0) as W by (apply nth_In; lia). rewrite Same by (apply HP0, W). rewrite E. apply Bs. }
        split; [apply (b_sub _ _ _ Bs), HA, Hs0|]. split; [exact Ns0|]. rewrite (Same s0 Hs0).
        assert (C1 := b_col _ _ _ Bs s0 (proj1 (HA s0 Hs0))). split; [lia|].
        assert (Rest : forall u, vertex g u -> ~ In u P0 -> u <> s0 -> In u (x :: R)).
        { intros u Vu Nu Du. specialize (All u Vu). rewrite EP, EA in All. rewrite !in_app_iff in All. destruct All as [[H|[H|[]]]|H]; [contradiction|congruence|exact H]. }
        split.
        { intros u Hu Du. destruct (in_dec Z.eq_dec u vs) as [Vu|Vu].
          - apply Z1, Rest; [apply vs_In, Vu|exact Hu|exact Du].
          - unfold cf. destruct (dget color2 u) eqn:Eg; [|reflexivity]. exfalso. apply Vu, vs_In, (proj2 C2), dget_key. eexists. exact Eg. }
        split; [rewrite <- EA; rewrite EP in O; apply oks_app in O; exact O|]. split; [exact D2|]. split.
        { intros u. rewrite U2. split.
          - intros [H|H]; [exfalso; apply (U0 u), H|]. split; [apply (b_sub _ _ _ Bs); rewrite EP; apply in_app_iff; right; exact H|].
            split; [intros Q; apply (proj2 (HA u (HP0 u Q))), H|]. intros ->. exfalso. apply (proj2 (HA s0 Hs0)), H.
          - intros (Vu & Nu & H0). right. apply Rest; [exact Vu|exact Nu|]. intros ->. specialize (H0 eq_refl). lia. }
        intros B f HB Hf. rewrite <- EA. apply (Pd' B f HB Hf). }
      split; [left; exists P0; exact T'|].
      assert (M := meas_trying st' P0 s0 eq_refl T'). assert (TB' := tval_bound st' P0 s0 T'). rewrite M. split; [lia|].
      assert (val b color P <= tval (k_color st') P0 s0); [|lia].
      unfold st'. cbn [k_color]. unfold tval. rewrite <- EA. rewrite (val_ext b _ color A Same).
      replace (Z.of_nat n - Z.of_nat (length P0) - 1) with (Z.of_nat (length (x :: R))) by (cbn [length]; lia).
      rewrite EP, (val_app b b_gt). assert (W := val_bound b b_gt color (x :: R)). assert (W' := W ltac:(intros u Hu; assert (Q := b_col _ _ _ Bs u ltac:(rewrite EP; apply in_app_iff; right; exact Hu)); unfold b; lia)). lia.
    - split.
      + right. unfold ended, st'. cbn [k_idx k_best]. split; [lia|]. intros B f HB Hf. destruct (Pd' B f HB Hf) as (f' & j & _ & J & _). lia.
      + unfold meas, st'. cbn [k_idx]. destruct (Z.ltb_spec (Z.of_nat (length A) - 1) (Z.of_nat k)); [|lia].
        assert (W := val_bound b b_gt color P ltac:(intros u Hu; assert (Q := b_col _ _ _ Bs u Hu); unfold b; lia)). rewrite LP in W. lia.
  Qed.

  (** *** A round *)
  Lemma try_step st P s : trying st P s -> coloured (the_best (k_found st)) (k_best st) -> k_best st <= Z.of_nat n ->
    exists st', try_colour g s st = Ret st' /\ kinv st' /\ 0 <= meas st' < b ^ Z.of_nat n - tval (k_color st) P s.
  Proof using All.
    intros T Cb Bn. pose proof T as (I & LP & Bs & Vs & Ns & C0 & Z0 & O & D & U & Pd).
    destruct st as [idx nx s' sc color order unc best found]. cbn [k_idx k_next k_s k_sc k_color k_order k_unc k_best k_found] in *.
    unfold try_colour. destruct (around_ok color s (b_tot _ _ _ Bs) Vs) as (adj & Ea & _ & A). rewrite Ea. cbn [bind].
    rewrite (ctot_get color s (b_tot _ _ _ Bs) Vs). cbn [bind].
    assert (NeP : P <> []) by (destruct P; [cbn in LP; lia|discriminate]).
    destruct (find_free adj (Z.to_nat (Z.of_nat n - cf color s)) (cf color s + 1)) as (c & Ef & Rc & Nc & Lc).
    { exists (Z.of_nat n). split; [lia|]. intros H. apply A in H as (v & E & Ev). destruct (in_dec Z.eq_dec v P) as [Hv|Hv].
      - assert (Q := b_col _ _ _ Bs v Hv). lia.
      - destruct (Z.eq_dec v s) as [->|Dv]; [lia|]. rewrite (Z0 v Hv Dv) in Ev. lia. }
    replace (cf color s + 1 + Z.of_nat (Z.to_nat (Z.of_nat n - cf color s))) with (Z.of_nat (length vs) + 1) in Ef by (fold n; lia).
    fold vs. rewrite Ef. cbn [bound bind].
    assert (Lc' : forall x, cf color s < x < c -> In x adj) by (intros x Hx; apply Lc; lia).
    assert (Em : mapM (fun i => do u <- dgetM order i; do d <- dgetM color u; Ret (d + 1)) (zrange 0 idx) = Ret (map (fun u => cf color u + 1) P)).
    { assert (Op := oks_app order P [s] O). rewrite (mapM_ret _ (fun i => cf color (cf order i) + 1)).
      - f_equal. rewrite <- (map_map (cf order) (fun u => cf color u + 1)). f_equal. rewrite I. apply (prefix_oks order P Op).
      - intros i Hi'. apply zrange_In in Hi'. assert (Oi := Op (Z.to_nat i) ltac:(lia)). rewrite Z2Nat.id in Oi by lia.
        unfold cf at 2. unfold dgetM at 1. rewrite Oi. cbn [bind]. rewrite ctot_get; [reflexivity|apply Bs|apply (b_sub _ _ _ Bs), nth_In; lia]. }
    destruct (py_max_ok (map (fun u => cf color u + 1) P)) as (m & Emx & Hm & Mm); [destruct P; [congruence|discriminate]|].
    apply in_map_iff in Hm as (um & Eum & Hum).
    assert (Ok : (do ok <- (if c <? best then do l <- mapM (fun i => do u <- dgetM order i; do d <- dgetM color u; Ret (d + 1)) (zrange 0 idx); do m <- py_max l; Ret (c <=? m) else Ret false); Ret ok)
                  = Ret ((c <? best) && (c <=? m))).
    { rewrite Em. destruct (c <? best); cbn [bind andb]; [|reflexivity]. rewrite Emx. reflexivity. }
    match goal with |- context [bind (if c <? best then ?e else Ret false) _] => replace (if c <? best then e else Ret false) with (Ret ((c <? best) && (c <=? m))) by (rewrite Em; destruct (c <? best); cbn [bind andb]; [rewrite Emx; reflexivity|reflexivity]) end.
    cbn [bind]. clear Ok. destruct (Z.ltb_spec c best) as [Hb|Hb]; cbn [andb]; [destruct (Z.leb_spec c m) as [Hc|Hc]|].
    - (* accepted *)
      destruct (accept color P s best adj c Bs NeP Vs Ns Z0 (proj1 C0) A Nc ltac:(lia) Lc' Hb Bn Pd) as (Bs1 & Pd1).
      assert (Same : forall u, In u P -> cf (dset color s c) u = cf color u).
      { intros u Hu. rewrite cf_dset. destruct (Z.eqb_spec s u) as [->|]; [contradiction|reflexivity]. }
      assert (U1 : forall u, In u (without unc s) <-> vertex g u /\ ~ In u (P ++ [s])).
      { intros u. rewrite without_In, U, in_app_iff. cbn [In]. split; [intros ((Vu & Nu & _) & Du)|intros (Vu & Nu)].
        - split; [exact Vu|]. intros [H|[H|[]]]; [contradiction|congruence].
        - assert (u <> s) by (intros ->; tauto). split; [|assumption]. split; [exact Vu|]. split; [tauto|]. congruence. }
      fold n. destruct (Z.eqb_spec idx (Z.of_nat n - 1)) as [Ei|Ei].
      + assert (L1 : length (P ++ [s]) = n) by (rewrite app_length; cbn [length]; lia).
        destruct (complete_round (P ++ [s]) (dset color s c) order (without unc s) best (Some c) (Some (dset color s c)) Bs1 L1 ltac:(lia) O (without_nodup _ _ D)) as
          (l & best1 & j & color2 & unc2 & s0 & E1 & E2 & E3 & E4 & E5 & B12 & C1 & T1 & M1).
        { intros u Hu. apply U1 in Hu as (Vu & Nu). apply Nu. apply (full (P ++ [s]) (b_dup _ _ _ Bs1) (b_sub _ _ _ Bs1) L1 u Vu). }
        { exact Bn. }
        { exact Pd1. }
        fold vs in E4. unfold n. rewrite E1. cbn [bind]. rewrite E2. cbn [bind]. rewrite E3. cbn [bind]. rewrite E4. cbn [bind]. rewrite E5. cbn [bind].
        eexists. split; [reflexivity|]. split.
        * split; [exact C1|]. cbn [k_best]. split; [lia|]. right. destruct T1 as [(P0 & T1)|T1]; [left; exists P0, s0; split; [reflexivity|split; [reflexivity|exact T1]]|right; exact T1].
        * fold n. split; [lia|]. enough (tval color P s < val b (dset color s c) (P ++ [s])) by lia.
          unfold tval. replace (Z.of_nat n - Z.of_nat (length P) - 1) with 0 by lia. rewrite Z.pow_0_r, !val_snoc, (val_ext b _ color P Same), cf_dset, Z.eqb_refl. lia.
      + eexists. split; [reflexivity|].
        match goal with |- kinv ?s1 /\ _ => set (st1 := s1) end.
        assert (F : fresh st1 (P ++ [s])).
        { unfold fresh, st1. cbn [k_idx k_next k_s k_sc k_color k_order k_unc k_best k_found]. rewrite app_length. cbn [length].
          split; [reflexivity|]. split; [lia|]. split; [lia|]. split; [exact Bs1|]. split.
          { intros u Hu. rewrite in_app_iff in Hu. cbn [In] in Hu. rewrite cf_dset. destruct (Z.eqb_spec s u) as [->|Du]; [tauto|]. apply Z0; [tauto|congruence]. }
          split; [exact O|]. split; [apply without_nodup, D|]. split; [exact U1|exact Pd1]. }
        split; [split; [exact Cb|]; split; [exact Bn|]; left; exists (P ++ [s]); exact F|].
        rewrite (meas_fresh st1 _ F). assert (FB := fval_bound st1 _ F). split; [lia|]. enough (tval color P s < fval (k_color st1) (P ++ [s])) by lia.
        unfold tval, fval, st1. cbn [k_color]. rewrite !val_snoc, (val_ext b _ color P Same), cf_dset, Z.eqb_refl, app_length. cbn [length].
        replace (Z.of_nat n - Z.of_nat (length P + 1)) with (Z.of_nat n - Z.of_nat (length P) - 1) by lia.
        assert (X : 0 < b ^ (Z.of_nat n - Z.of_nat (length P) - 1)) by (apply Z.pow_pos_nonneg; [assert (H := b_gt); lia|lia]).
        assert (Y : cf color s + 1 <= c) by lia. clear - X Y. nia.
    - (* too many colours *)
      destruct (back _ P s adj c (Some c) T A Lc') as (s0 & E & T1 & M1).
      { right. intros u Hu. assert (Q := Mm (cf color u + 1) (in_map (fun u => cf color u + 1) _ _ Hu)). cbn [k_color]. lia. }
      cbn [k_idx k_order k_color k_unc k_best k_found] in *. rewrite E. cbn [bind]. eexists. split; [reflexivity|]. split; [|exact M1].
      split; [exact Cb|]. split; [exact Bn|]. right. destruct T1 as [(P0 & T1)|T1]; [left; exists P0, s0; split; [reflexivity|split; [reflexivity|exact T1]]|right; exact T1].
    - destruct (back _ P s adj c (Some c) T A Lc') as (s0 & E & T1 & M1).
      { left. exact Hb. }
      cbn [k_idx k_order k_color k_unc k_best k_found] in *. rewrite E. cbn [bind]. eexists. split; [reflexivity|]. split; [|exact M1].
      split; [exact Cb|]. split; [exact Bn|]. right. destruct T1 as [(P0 & T1)|T1]; [left; exists P0, s0; split; [reflexivity|split; [reflexivity|exact T1]]|right; exact T1].
  Qed.

  Lemma loop_ok fuel st : kinv st -> meas st < 2 ^ Z.of_nat fuel ->
    exists st', run (k_loop g ord (Z.of_nat k)) fuel st = Ret st' /\ coloured (the_best (k_found st')) (k_best st') /\ k_best st' <= Z.of_nat n /\ forall B f, B <= k_best st' -> ~ fine g B f.
  Proof using All.
    intros I0 M0.
    refine (run_rule (k_loop g ord (Z.of_nat k)) kinv meas (fun r => exists st', r = Ret st' /\ coloured (the_best (k_found st')) (k_best st') /\ k_best st' <= Z.of_nat n /\ forall B f, B <= k_best st' -> ~ fine g B f) _ fuel st I0 M0).
    clear fuel st I0 M0. intros st (C & Bn & W). unfold k_loop. destruct (Z.ltb_spec (k_idx st) (Z.of_nat k)) as [H|H].
    - exists st. split; [reflexivity|]. split; [exact C|]. split; [exact Bn|]. destruct W as [(P & _ & I & L & _)|[(P & s & _ & _ & I & L & _)|(_ & E)]]; [lia|lia|exact E].
    - destruct W as [(P & F)|[(P & s & N & Es & T)|(E & _)]]; [| |lia].
      + destruct (fresh_trying st P F) as (s & Ec & T & V). cbv zeta in T. unfold k_round. rewrite (proj1 F), Ec. cbn [bind bound].
        destruct (try_step _ P s T C Bn) as (st' & Et & I' & M'). rewrite Et. split; [exact I'|]. rewrite (meas_fresh st P F). cbn [k_color] in M'. lia.
      + unfold k_round. rewrite N, Es. cbn [bound bind]. destruct (try_step st P s T C Bn) as (st' & Et & I' & M'). rewrite Et. split; [exact I'|]. rewrite (meas_trying st P s N T). exact M'.
  Qed.
End Korman.
