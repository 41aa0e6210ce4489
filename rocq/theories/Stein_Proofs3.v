(** * Proofs about Steiner trees: the deletion of leaves, the improvement *)
From Coq Require Import ZArith List Lia Bool Permutation Sorting.Sorted.
From Verif Require Import Base Py Dict Lists Lists2 Graph_Model Graph_Spec Graph_Proofs Graph_Proofs2 Graph_Props UF_Model UF_Spec UF_Proofs Trav_Model Trav_Spec Trav_Proofs Trav_Proofs2
  Paths_Model Paths_Spec MST_Model MST_Spec MST_Proofs MST_Proofs2 MST_Props Color_Model Kor_Model Kor_Proofs Stein_Model Stein_Spec Stein_Proofs Stein_Proofs2.
Import ListNotations.
Open Scope Z_scope.

Lemma filter_split {A} (f : A -> bool) l : Permutation l (filter f l ++ filter (fun x => negb (f x)) l).
Proof.
  induction l as [|x l IH]; [constructor|]. cbn [filter]. destruct (f x); cbn [negb app]; [constructor; exact IH|].
  rewrite <- Permutation_middle. constructor. exact IH.
Qed.

Section Prune.
  Context (g : graph) (R : list Z) (ord : list Z -> list Z).
  Hypothesis Hg : undirected g.
  Hypothesis Hn : nonneg g.
  Hypothesis Hord : forall l, Permutation (ord l) l.
  Context (r0 : Z).
  Hypothesis Hr0 : In r0 R.
  Context (W1 : Z).

  (** H is the tree T on the vertices V, which include R. *)
  Definition pinv (H : graph) (V : list Z) (T : list (Z * Z)) : Prop :=
    undirected H /\ NoDup V /\ (forall r, In r R -> In r V) /\ spanning_tree g V T /\ (forall u v, In (u, v) T -> u < v) /\
    (forall x, vertex H x <-> In x V) /\ (forall x y, edge H x y <-> adjacent T x y) /\ exists W, total_weight g T W /\ W <= W1.

  Definition lone (H : graph) (x : Z) : Prop := exists p, forall z, edge H x z <-> z = p.

  Lemma cut_leaf H V T x : pinv H V T -> ~ In x R -> lone H x -> exists V' T', pinv (delete_vertex H x) V' T' /\ length V = Datatypes.S (length V').
  Proof using All.
    intros (Hu & NV & HR & (S1 & S2 & S3) & Ho & Hv & He & W & TW & LW) Nx (p & Hp).
    set (touch := fun e : Z * Z => (fst e =? x) || (snd e =? x)).
    exists (filter (fun v => negb (v =? x)) V), (filter (fun e => negb (touch e)) T).
    assert (Ex : edge H x p) by (apply Hp; reflexivity).
    assert (Vx : In x V). { apply He in Ex as [I|I]; apply S1 in I; tauto. }
    assert (Npx : p <> x). { intros ->. apply He in Ex as [I|I]; apply Ho in I; lia. }
    assert (LV : length V = Datatypes.S (length (filter (fun v => negb (v =? x)) V))).
    { rewrite (Permutation_length (filter_split (fun v => v =? x) V)), app_length.
      assert (Q : filter (fun v => v =? x) V = [x]).
      { apply in_split in Vx as (A & B & ->). apply NoDup_remove_2 in NV. rewrite in_app_iff in NV.
        assert (Z0 : forall l, ~ In x l -> filter (fun v => v =? x) l = []).
        { induction l as [|y l IH]; intros N; [reflexivity|]. cbn [filter]. destruct (Z.eqb_spec y x) as [->|_]; [destruct N; left; reflexivity|]. apply IH. intros I. apply N. right. exact I. }
        rewrite filter_app, (Z0 A) by tauto. cbn [filter app]. rewrite Z.eqb_refl, (Z0 B) by tauto. reflexivity. }
      rewrite Q. reflexivity. }
    assert (IV : forall v, In v (filter (fun v => negb (v =? x)) V) <-> In v V /\ v <> x).
    { intros v. rewrite filter_In. destruct (Z.eqb_spec v x); cbn [negb]; intuition congruence. }
    assert (IT : forall u v, In (u, v) (filter (fun e => negb (touch e)) T) <-> In (u, v) T /\ u <> x /\ v <> x).
    { intros u v. rewrite filter_In. unfold touch. cbn [fst snd]. destruct (Z.eqb_spec u x), (Z.eqb_spec v x); cbn [orb negb]; intuition congruence. }
    set (phi := fun y => if y =? x then p else y).
    assert (Lphi : forall u v, linked T u v -> linked (filter (fun e => negb (touch e)) T) (phi u) (phi v)).
    { intros u v L. induction L as [u v I|u|u v _ IH|u v w _ IH1 _ IH2].
      - unfold phi. destruct (Z.eqb_spec u x) as [->|Nu], (Z.eqb_spec v x) as [->|Nv].
        + apply linked_refl.
        + replace v with p; [apply linked_refl|]. symmetry. apply Hp, He. left. exact I.
        + replace u with p; [apply linked_refl|]. symmetry. apply Hp, He. right. exact I.
        + apply linked_edge, IT. auto.
      - apply linked_refl.
      - apply linked_sym, IH.
      - eapply linked_trans; eassumption. }
    assert (LT : forall u v, In u (filter (fun v => negb (v =? x)) V) -> In v (filter (fun v => negb (v =? x)) V) -> linked (filter (fun e => negb (touch e)) T) u v).
    { intros u v Iu Iv. apply IV in Iu as (Iu & Nu), Iv as (Iv & Nv). assert (Q := Lphi u v (S2 u v Iu Iv)). unfold phi in Q.
      destruct (Z.eqb_spec u x); [contradiction|]. destruct (Z.eqb_spec v x); [contradiction|exact Q]. }
    assert (NV' : NoDup (filter (fun v => negb (v =? x)) V)) by (apply NoDup_filter, NV).
    assert (TW' := tw_perm g _ _ _ (filter_split touch T) TW). apply tw_app in TW' as (Wa & Wb & TA & TB & EW).
    destruct (delete_vertex_ok H x (undirected_wfd H Hu)) as (_ & Dv & Dw). specialize (Dw (proj1 (proj2 (proj2 Hu)))).
    split; [|exact LV].
    split; [exact (proj1 (apply_op_ok H (OpDeleteVertex x) Hu))|]. split; [exact NV'|]. split.
    { intros r Hr. apply IV. split; [apply HR, Hr|]. intros ->. contradiction. }
    split; [|split; [|split; [|split]]].
    - split; [|split].
      + intros u v I. apply IT in I as (I & Nu & Nv). destruct (S1 u v I) as (A & B & C). rewrite !IV. auto.
      + exact LT.
      + assert (Lo := linked_lower _ _ NV' LT). assert (length (filter (fun e => negb (touch e)) T) < length T)%nat; [|lia].
        rewrite (Permutation_length (filter_split touch T)), app_length.
        assert (exists e, In e T /\ touch e = true) as (e & Ie & Te).
        { apply He in Ex as [I|I]; [exists (x, p)|exists (p, x)]; (split; [exact I|]); unfold touch; cbn [fst snd]; rewrite Z.eqb_refl; [reflexivity|apply orb_true_r]. }
        assert (In e (filter touch T)) as If by (apply filter_In; split; assumption). destruct (filter touch T); [destruct If|cbn; lia].
    - intros u v I. apply IT in I as (I & _). apply Ho, I.
    - intros y. rewrite Dv, Hv, IV. tauto.
    - intros y z. unfold edge. rewrite Dw. split.
      + intros (w & Ew). destruct (Z.eqb_spec y x), (Z.eqb_spec z x); cbn [orb] in Ew; try discriminate.
        assert (Q : edge H y z) by (exists w; exact Ew). apply He in Q as [I|I]; [left|right]; apply IT; auto.
      + intros Q. assert (adjacent T y z /\ y <> x /\ z <> x) as (A & Ny & Nz) by (destruct Q as [I|I]; apply IT in I as (I & N1 & N2); [split; [left|]; auto|split; [right|]; auto]).
        destruct (Z.eqb_spec y x); [contradiction|]. destruct (Z.eqb_spec z x); [contradiction|]. cbn [orb]. apply He in A. exact A.
    - exists Wb. split; [exact TB|]. assert (Q := tw_nonneg g _ Wa Hn TA). lia.
  Qed.

  (** Another leaf keeps its neighbour. *)
  Lemma lone_keeps H V T x y : pinv H V T -> ~ In x R -> ~ In y R -> x <> y -> lone H x -> lone H y -> lone (delete_vertex H x) y.
  Proof using All.
    intros (Hu & NV & HR & (S1 & S2 & S3) & Ho & Hv & He & W & TW & LW) Nx Ny Nxy (p & Hp) (q & Hq).
    destruct (delete_vertex_ok H x (undirected_wfd H Hu)) as (_ & Dv & Dw). specialize (Dw (proj1 (proj2 (proj2 Hu)))).
    assert (Nq : q <> x).
    { intros ->. assert (Eyx : edge H y x) by (apply Hq; reflexivity).
      assert (Exy : edge H x y) by (destruct Eyx as (w & Ew); exists w; rewrite (proj2 (proj2 (proj2 Hu))); exact Ew).
      assert (p = y) by (symmetry; apply Hp, Exy). subst p.
      assert (Vx : In x V) by (apply He in Exy as [I|I]; apply S1 in I; tauto).
      destruct (crossing T (fun z => (z =? x) || (z =? y)) x r0 (S2 x r0 Vx (HR r0 Hr0))) as (a & b & I & D).
      { rewrite Z.eqb_refl. cbn [orb]. destruct (Z.eqb_spec r0 x) as [->|_]; [contradiction|]. destruct (Z.eqb_spec r0 y) as [->|_]; [contradiction|]. discriminate. }
      assert (Eab : edge H a b) by (apply He; left; exact I). assert (Eba : edge H b a) by (apply He; right; exact I).
      apply D. destruct (Z.eqb_spec a x) as [->|Nax].
      { apply Hp in Eab as ->. rewrite Z.eqb_refl, orb_true_r. reflexivity. }
      destruct (Z.eqb_spec a y) as [->|Nay].
      { apply Hq in Eab as ->. rewrite Z.eqb_refl. reflexivity. }
      destruct (Z.eqb_spec b x) as [->|Nbx]; [apply Hp in Eba as ->; congruence|].
      destruct (Z.eqb_spec b y) as [->|Nby]; [apply Hq in Eba as ->; congruence|]. reflexivity. }
    exists q. intros z. unfold edge. rewrite Dw. destruct (Z.eqb_spec y x) as [->|_]; [congruence|]. cbn [orb].
    destruct (Z.eqb_spec z x) as [->|Nz].
    - split; [intros (w & Ew); discriminate|intros ->; congruence].
    - apply Hq.
  Qed.

  Lemma cut_leaves : forall drop H V T, pinv H V T -> NoDup drop -> (forall x, In x drop -> ~ In x R /\ lone H x) ->
    exists V' T', pinv (fold_left delete_vertex drop H) V' T' /\ (length V' + length drop = length V)%nat.
  Proof using All.
    induction drop as [|x drop IH]; intros H V T P N D; [exists V, T; split; [exact P|cbn; lia]|].
    inversion_clear N as [|? ? Nx N']. destruct (D x (or_introl eq_refl)) as (Rx & Lx).
    destruct (cut_leaf H V T x P Rx Lx) as (V1 & T1 & P1 & L1). cbn [fold_left].
    destruct (IH (delete_vertex H x) V1 T1 P1 N') as (V' & T' & P' & L').
    - intros y Iy. destruct (D y (or_intror Iy)) as (Ry & Ly). split; [exact Ry|]. apply (lone_keeps H V T x y P Rx Ry); auto. intros ->. contradiction.
    - exists V', T'. split; [exact P'|]. cbn [length]. lia.
  Qed.

  Lemma leaves_lone H x : undirected H -> In x (leaves ord H) <-> lone H x.
  Proof using Hord.
    intros Hu. unfold leaves. split.
    - intros I. apply (Permutation_in _ (Hord _)) in I. apply in_map_iff in I as ((x', a) & E & I). cbn [fst] in E. subst x'.
      apply filter_In in I as (I & L). cbn [snd] in L. apply Z.eqb_eq in L. destruct a as [|(p, w) [|q a]]; [cbn in L; lia| |cbn [length] in L; lia].
      exists p. intros z. unfold edge, weight. rewrite (dget_In H x [(p, w)] (proj1 Hu) I). cbn [dget]. destruct (Z.eqb_spec p z) as [->|N].
      + split; [reflexivity|intros _; exists w; reflexivity].
      + split; [intros (w' & E); discriminate|congruence].
    - intros (p & Hp). apply (Permutation_in _ (Permutation_sym (Hord _))). assert (Exp : edge H x p) by (apply Hp; reflexivity).
      unfold edge, weight in Hp, Exp. destruct (dget H x) as [a|] eqn:Ea; [|destruct Exp; discriminate]. apply dget_Some_In in Ea.
      apply in_map_iff. exists (x, a). split; [reflexivity|]. apply filter_In. split; [exact Ea|]. cbn [snd]. apply Z.eqb_eq.
      assert (Na := proj1 (proj2 Hu) x a Ea).
      assert (Pm : Permutation (map fst a) [p]).
      { apply NoDup_Permutation; [exact Na|constructor; [intros []|constructor]|]. intros z. cbn [In]. split.
        - intros Iz. apply dget_key in Iz. left. symmetry. apply Hp. exact Iz.
        - intros [<-|[]]. apply dget_key. exact Exp. }
      apply Permutation_length in Pm. rewrite map_length in Pm. cbn in Pm. rewrite Pm. reflexivity.
  Qed.

  Lemma prune_ok : forall fuel H V T, pinv H V T -> (length V < fuel)%nat ->
    exists H' V' T', prune ord R fuel H = Ret H' /\ pinv H' V' T' /\ forall x, lone H' x -> In x R.
  Proof using All.
    induction fuel as [|fuel IH]; intros H V T P L; [lia|]. cbn [prune]. assert (Hu := proj1 P).
    set (drop := filter (fun leaf => negb (mem leaf R)) (leaves ord H)).
    assert (HD : forall x, In x drop <-> lone H x /\ ~ In x R).
    { intros x. unfold drop. rewrite filter_In, (leaves_lone H x Hu), negb_true_iff, mem_false. reflexivity. }
    assert (ND : NoDup drop).
    { unfold drop. apply NoDup_filter. unfold leaves. apply (Permutation_NoDup (Permutation_sym (Hord _))).
      assert (NH := proj1 Hu). clear - NH. induction H as [|(u, a) H IHH]; [constructor|]. cbn [map fst] in NH. inversion_clear NH as [|? ? Nu NH'].
      cbn [filter]. destruct (_ =? 1); [|apply IHH, NH']. cbn [map fst]. constructor; [|apply IHH, NH'].
      intros I. apply Nu. apply in_map_iff in I as (e & E & I). apply filter_In in I as (I & _). apply in_map_iff. exists e. auto. }
    clearbody drop. destruct drop as [|x drop].
    - exists H, V, T. split; [reflexivity|]. split; [exact P|]. intros x Lx. destruct (in_dec Z.eq_dec x R) as [I|I]; [exact I|]. destruct (proj2 (HD x) (conj Lx I)).
    - destruct (cut_leaves (x :: drop) H V T P ND) as (V' & T' & P' & L').
      { intros y Iy. apply HD in Iy. tauto. }
      apply (IH _ V' T' P'). cbn [length] in L'. lia.
  Qed.
End Prune.

Lemma tree_edges H T : undirected H -> NoDup T -> (forall u v, In (u, v) T -> u < v) ->
  (forall x y, edge H x y <-> adjacent T x y) -> Permutation (edges H) T.
Proof.
  intros Hu NT Ho He. unfold edges. rewrite sort_pairs_perm. destruct (C55_edge_set H Hu) as (N & I & _).
  apply NoDup_Permutation; [exact N|exact NT|]. intros (u, v). rewrite I, He. unfold adjacent. split.
  - intros (L & [Q|Q]); [exact Q|]. apply Ho in Q. lia.
  - intros Q. split; [apply Ho in Q; lia|left; exact Q].
Qed.

Lemma ends_fold : forall es s x, In x (fold_left (fun s uv => set_add (set_add s (fst uv)) (snd uv)) es s) <-> In x s \/ ends es x.
Proof.
  induction es as [|(u, v) es IH]; intros s x; cbn [fold_left].
  - split; [auto|]. intros [I|(y & [[]|[]])]. exact I.
  - rewrite IH, !set_add_In. cbn [fst snd]. unfold ends, adjacent. cbn [In]. split.
    + intros [[[I| ->]| ->]|(y & Q)]; [left; exact I|right; exists v; left; left; reflexivity|right; exists u; right; left; reflexivity|right; exists y; tauto].
    + intros [I|(y & [[E|I]|[E|I]])]; [tauto|injection E as -> ->; tauto|right; exists y; tauto|injection E as -> ->; tauto|right; exists y; tauto].
Qed.
Lemma ends_fold_NoDup : forall es s, NoDup s -> NoDup (fold_left (fun s uv => set_add (set_add s (fst uv)) (snd uv)) es s).
Proof. induction es as [|(u, v) es IH]; intros s N; cbn [fold_left]; [exact N|]. apply IH, set_add_NoDup, set_add_NoDup, N. Qed.

Lemma tw_sum g : forall T W t, total_weight g T W -> foldM (fun t uv => do w <- g_weight g (fst uv) (snd uv); Ret (t + w)) T t = Ret (t + W).
Proof.
  intros T W t H. revert t. induction H as [|u v w T W Hw _ IH]; intros t; [cbn; f_equal; lia|].
  cbn [foldM fst snd]. unfold g_weight at 1. unfold weight in Hw. destruct (dget g u) as [a|] eqn:Ea; [|discriminate].
  replace (g_adj g u) with (Ret a) by (unfold g_adj, dgetM; rewrite Ea; reflexivity). cbn [bind].
  replace (dgetM a v) with (Ret w) by (unfold dgetM; rewrite Hw; reflexivity). cbn [bind]. rewrite IH. f_equal. lia.
Qed.

(** Every vertex of a tree with two vertices or more is an end of an edge. *)
Lemma linked_end T x y : linked T x y -> x <> y -> ends T x.
Proof.
  intros L D. destruct (crossing T (fun z => z =? x) x y L) as (a & b & I & N).
  { rewrite Z.eqb_refl. destruct (Z.eqb_spec y x); congruence. }
  destruct (Z.eqb_spec a x) as [->|Na]; [exists b; left; exact I|]. destruct (Z.eqb_spec b x) as [->|Nb]; [exists a; right; exact I|]. congruence.
Qed.

Lemma improve_ok ord g R es W0 : (forall l, Permutation (ord l) l) -> undirected g -> nonneg g -> (exists r1 r2, In r1 R /\ In r2 R /\ r1 <> r2) -> total_weight g es W0 ->
  (forall r, In r R -> ends es r) -> (forall u v, ends es u -> ends es v -> linked es u v) ->
  exists W T, improve ord g es R = Ret (W, T) /\ steiner_tree g R T W /\ listed_in_order T /\ (forall v, leaf T v -> In v R) /\ W <= W0.
Proof.
  intros Hord Hg Hn (r1 & r2 & I1 & I2 & D12) TW HR Lk. unfold improve.
  set (V := fold_left (fun s uv => set_add (set_add s (fst uv)) (snd uv)) es []).
  assert (IV : forall x, In x (ord V) <-> ends es x).
  { intros x. split.
    - intros I. apply (Permutation_in _ (Hord _)) in I. apply ends_fold in I as [[]|I]. exact I.
    - intros I. apply (Permutation_in _ (Permutation_sym (Hord _))). apply ends_fold. right. exact I. }
  assert (NV : NoDup (ord V)) by (apply (Permutation_NoDup (Permutation_sym (Hord _))), ends_fold_NoDup; constructor).
  clearbody V. remember (ord V) as U eqn:EU. clear EU V.
  assert (Eg : forall x y, In (x, y) es -> edge g x y) by (intros x y I; exact (tw_edge g es W0 x y TW I)).
  destruct (C55_induced_subgraph ord g U Hord Hg) as (h & Eh & Hh & Vh & Wh).
  { intros x I. apply IV in I as (y & [I|I]); apply Eg in I as (w & Hw); [|destruct Hg as (_ & _ & C & _); apply (C y x); exists w; exact Hw].
    destruct Hg as (_ & _ & C & Sy). apply (C y x). exists w. rewrite Sy. exact Hw. }
  rewrite Eh. cbn [bind].
  assert (EU : forall x y, In (x, y) es -> In x U /\ In y U) by (intros x y I; rewrite !IV; split; [exists y; left; exact I|exists x; right; exact I]).
  assert (Ehh : forall x y, In (x, y) es -> edge h x y).
  { intros x y I. destruct (Eg x y I) as (w & Hw). exists w. rewrite (proj1 (Wh x y) (EU x y I)). exact Hw. }
  assert (NU : U <> []) by (intros E; assert (Q := proj2 (IV r1) (HR r1 I1)); rewrite E in Q; destruct Q).
  assert (LU : forall u v, In u U -> In v U -> linked es u v) by (intros u v Iu Iv; apply Lk; apply IV; assumption).
  destruct (prim_all h U es Hh NU NV Vh Ehh LU) as (W1 & T1 & Ep & Lo & M). rewrite Ep. cbn [bind].
  assert (Hwt : forall T W, (forall u v, In (u, v) T -> In u U /\ In v U) -> total_weight h T W <-> total_weight g T W).
  { intros T. induction T as [|(u, v) T IH]; intros W HT; [split; intros Q; inversion Q; constructor|].
    assert (E := proj1 (Wh u v) (HT u v (or_introl eq_refl))).
    split; intros Q; inversion Q; subst; (constructor; [congruence|apply IH; [intros a b I; apply HT; right; exact I|assumption]]). }
  assert (Hnh : nonneg h).
  { intros u v c E. destruct (in_dec Z.eq_dec u U) as [Iu|Iu]; [destruct (in_dec Z.eq_dec v U) as [Iv|Iv]|].
    - rewrite (proj1 (Wh u v) (conj Iu Iv)) in E. apply (Hn _ _ _ E).
    - rewrite (proj2 (Wh u v)) in E by tauto. discriminate.
    - rewrite (proj2 (Wh u v)) in E by tauto. discriminate. }
  destruct M as ((S1 & S2 & S3) & TW1 & Min).
  destruct (spanning_within h U es W0 Hnh NV NU EU LU (proj2 (Hwt es W0 EU) TW)) as (T2 & W2 & St2 & TW2 & L2).
  assert (LW := Min T2 W2 St2 TW2).
  assert (TU : forall u v, In (u, v) T1 -> In u U /\ In v U) by (intros u v I; destruct (S1 u v I) as (A & B & _); auto).
  assert (Stg : spanning_tree g U T1).
  { split; [|split; assumption]. intros u v I. destruct (S1 u v I) as (A & B & (w & Hw)). split; [exact A|]. split; [exact B|]. exists w.
    rewrite <- (proj1 (Wh u v) (conj A B)). exact Hw. }
  apply (Hwt T1 W1 TU) in TW1.
  (* the tree as a graph *)
  unfold delete_nonterminal_leaves. destruct (add_edges_sub (fun _ _ => 1) T1 ltac:(reflexivity)) as (Ht & Vt & Wt).
  set (tree := add_edges empty_graph _) in *.
  assert (Two : forall x, In x U -> ends T1 x).
  { intros x I. assert (exists y, In y U /\ y <> x) as (y & Iy & Ny).
    { destruct (Z.eq_dec r1 x) as [->|N1]; [exists r2; split; [apply IV, HR, I2|congruence]|exists r1; split; [apply IV, HR, I1|exact N1]]. }
    apply (linked_end T1 x y); [apply S2; assumption|congruence]. }
  assert (P0 : pinv g R W1 tree U T1).
  { split; [exact Ht|]. split; [exact NV|]. split; [intros r Ir; apply IV, HR, Ir|]. split; [exact Stg|]. split; [apply Lo|]. split; [|split].
    - intros x. rewrite Vt. split; [|apply Two]. intros (y & [I|I]); apply TU in I; tauto.
    - intros x y. split.
      + intros (w & Ew). destruct (in_dec (fun a b : Z * Z => ltac:(decide equality; apply Z.eq_dec) : {a = b} + {a <> b}) (x, y) T1) as [I|I]; [left; exact I|].
        destruct (in_dec (fun a b : Z * Z => ltac:(decide equality; apply Z.eq_dec) : {a = b} + {a <> b}) (y, x) T1) as [J|J]; [right; exact J|].
        rewrite (proj2 (Wt x y)) in Ew; [discriminate|]. intros [A|A]; contradiction.
      + intros A. exists 1. apply Wt, A.
    - exists W1. split; [exact TW1|lia]. }
  assert (Lt : length U = length tree).
  { rewrite <- (map_length fst tree). apply Permutation_length, NoDup_Permutation; [exact NV|apply Ht|]. intros x. symmetry. apply P0. }
  destruct (prune_ok g R ord Hg Hn Hord r1 I1 W1 (Datatypes.S (length tree)) tree U T1 P0) as (H' & V' & T' & Er & P' & Lv); [lia|].
  rewrite Er. cbn [bind]. destruct P' as (Hu' & NV' & HR' & St' & Ho' & Hv' & He' & W & TW' & LW').
  assert (NT' := st_nodup g V' NV' T' St'). assert (PE := tree_edges H' T' Hu' NT' Ho' He').
  assert (TWe := tw_perm g _ _ _ (Permutation_sym PE) TW'). rewrite (tw_sum g (edges H') W 0 TWe). cbn [bind]. rewrite Z.add_0_l.
  exists W, (edges H'). split; [reflexivity|]. split; [|split; [|split; [|lia]]].
  - exists V'. split; [exact NV'|]. split; [exact HR'|]. split; [apply (st_perm g V' T'); [symmetry; exact PE|exact St']|exact TWe].
  - split.
    + intros u v I. apply Ho', (Permutation_in _ PE I).
    + unfold edges. apply sort_pairs_sorted. apply (C55_edge_set H' Hu').
  - intros v (u & Hl). apply Lv. exists u. intros z. rewrite He', <- Hl. unfold adjacent.
    split; intros [Q|Q]; [left|right|left|right]; (eapply Permutation_in; [|exact Q]); [symmetry; exact PE|symmetry; exact PE|exact PE|exact PE].
Qed.
