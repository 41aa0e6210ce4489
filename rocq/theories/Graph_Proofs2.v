(** * Edge sets, derived graphs, degrees *)
From Coq Require Import ZArith List Bool Lia Sorting.Permutation Sorting.Sorted.
From Verif Require Import Base Py Lists Lists2 Dict Graph_Model Graph_Spec Graph_Proofs.
Import ListNotations.
Open Scope Z_scope.

(** ** The arcs *)
Definition arcs (g : graph) : list (Z * Z * Z) := flat_map (fun ua => map (fun vw => (fst ua, fst vw, snd vw)) (snd ua)) g.

Lemma edge_triples_arcs g : edge_triples g = filter (fun t => negb (snd (fst t) <? fst (fst t))) (arcs g).
Proof.
  unfold edge_triples, arcs. induction g as [|[u a] g IH]; [reflexivity|]. cbn [flat_map fst snd]. rewrite filter_app, IH. f_equal.
  induction a as [|[v w] a IHa]; [reflexivity|]. cbn [flat_map map filter fst snd]. destruct (v <? u); cbn [negb app]; rewrite IHa; reflexivity.
Qed.

Lemma arcs_In g u v w : wfd g -> In (u, v, w) (arcs g) <-> weight g u v = Some w.
Proof.
  intros (N & I). unfold arcs. rewrite in_flat_map. split.
  - intros ([x a] & Hx & H). apply in_map_iff in H as ([y z] & E & Hy). cbn [fst snd] in E. injection E as -> -> ->.
    unfold weight. rewrite (dget_In g u a N Hx). apply dget_In; [apply (I u), dget_In; assumption|exact Hy].
  - unfold weight. destruct (dget g u) as [a|] eqn:E; [|discriminate]. intros H. exists (u, a). split; [apply dget_Some_In, E|].
    apply in_map_iff. exists (v, w). split; [reflexivity|]. apply dget_Some_In, H.
Qed.

Lemma arcs_NoDup_aux g : NoDup (dkeys g) -> (forall u a, In (u, a) g -> NoDup (dkeys a)) -> NoDup (map fst (arcs g)).
Proof.
  unfold dkeys. induction g as [|[u a] g IH]; intros N I; [constructor|]. unfold arcs. cbn [flat_map fst snd]. rewrite map_app. fold (arcs g).
  inversion N as [|? ? N1 N2]; subst. apply NoDup_app_intro.
  - rewrite map_map. cbn [fst snd]. replace (map (fun x : Z * Z => (u, fst x)) a) with (map (fun v => (u, v)) (map fst a)) by (rewrite map_map; reflexivity).
    apply NoDup_map_inj; [apply (I u a); left; reflexivity|]. intros x y _ _ E. injection E. auto.
  - apply IH; [exact N2|]. intros x b H. apply (I x b). right. exact H.
  - intros p H1 H2. apply in_map_iff in H1 as (t & <- & H1). apply in_map_iff in H1 as (vw & <- & _). cbn [fst] in H2.
    apply in_map_iff in H2 as ([[x y] w] & E & H2). cbn [fst snd] in E. injection E as -> ->. apply N1.
    unfold arcs in H2. apply in_flat_map in H2 as ([z b] & Hz & H2). apply in_map_iff in H2 as (q & E & _). cbn [fst snd] in E. injection E as -> _ _.
    apply (in_map fst) in Hz. exact Hz.
Qed.

Lemma arcs_NoDup g : wfd g -> NoDup (map fst (arcs g)).
Proof. intros (N & I). apply arcs_NoDup_aux; [exact N|]. apply wfd_In; [exact N|exact I]. Qed.

Lemma edge_triples_In g u v w : wfd g -> In (u, v, w) (edge_triples g) <-> u <= v /\ weight g u v = Some w.
Proof.
  intros H. rewrite edge_triples_arcs, filter_In, arcs_In by exact H. cbn [fst snd]. rewrite negb_true_iff, Z.ltb_ge. tauto.
Qed.

Lemma map_fst_filter (f : Z * Z -> bool) (l : list (Z * Z * Z)) : map fst (filter (fun t => f (fst t)) l) = filter f (map fst l).
Proof. induction l as [|t l IH]; [reflexivity|]. cbn [filter map]. destruct (f (fst t)); cbn [map]; rewrite IH; reflexivity. Qed.

Lemma edge_set_arcs g : edge_set g = filter (fun p => negb (snd p <? fst p)) (map fst (arcs g)).
Proof. unfold edge_set. rewrite edge_triples_arcs. apply (map_fst_filter (fun p => negb (snd p <? fst p))). Qed.

Lemma edge_set_NoDup g : wfd g -> NoDup (edge_set g).
Proof. intros H. rewrite edge_set_arcs. apply NoDup_filter, arcs_NoDup, H. Qed.

Lemma NoDup_map_fst {A B} (l : list (A * B)) : NoDup (map fst l) -> NoDup l.
Proof.
  induction l as [|x l IH]; intros N; [constructor|]. cbn [map] in N. inversion N as [|? ? N1 N2]; subst. constructor; [|apply IH, N2].
  intros H. apply N1, in_map, H.
Qed.

Lemma edge_set_In g u v : wfd g -> In (u, v) (edge_set g) <-> u <= v /\ edge g u v.
Proof.
  intros H. unfold edge_set. rewrite in_map_iff. split.
  - intros ([[x y] w] & E & Hin). cbn [fst] in E. injection E as -> ->. apply edge_triples_In in Hin; [|exact H]. split; [apply Hin|]. exists w. apply Hin.
  - intros (L & w & W). exists (u, v, w). split; [reflexivity|]. apply edge_triples_In; [exact H|]. auto.
Qed.

Lemma degree_length g u : degree g u = match dget g u with Some a => Ret (Z.of_nat (length a)) | None => Raise KeyError end.
Proof. unfold degree, g_adj, dgetM. destruct (dget g u); reflexivity. Qed.

Lemma total_degree_sum g l : (forall u, In u l -> vertex g u) ->
  total_degree g l = Ret (fold_right (fun u t => degree0 g u + t) 0 l).
Proof.
  intros H. unfold total_degree.
  assert (G : forall l t, (forall u, In u l -> vertex g u) -> foldM (fun t u => do d <- degree g u; Ret (t + d)) l t = Ret (t + fold_right (fun u t => degree0 g u + t) 0 l)).
  { clear l H. induction l as [|u l IH]; intros t H; cbn [foldM fold_right]; [f_equal; lia|]. rewrite degree_length.
    destruct (proj1 (vertex_dget g u) (H u (or_introl eq_refl))) as (a & E). rewrite E. cbn [bind].
    rewrite IH by (intros x Hx; apply H; right; exact Hx). f_equal. unfold degree0 at 2. rewrite E. lia. }
  rewrite G by exact H. f_equal.
Qed.

Lemma sum_perm (f : Z -> Z) l l' : Permutation l l' -> fold_right (fun u t => f u + t) 0 l = fold_right (fun u t => f u + t) 0 l'.
Proof. induction 1; cbn [fold_right]; lia. Qed.

Lemma arcs_length g : NoDup (dkeys g) -> Z.of_nat (length (arcs g)) = fold_right (fun u t => degree0 g u + t) 0 (dkeys g).
Proof.
  intros N. assert (G : forall l, (forall u a, In (u, a) l -> dget g u = Some a) -> Z.of_nat (length (arcs l)) = fold_right (fun u t => degree0 g u + t) 0 (dkeys l)).
  { induction l as [|[u a] l IH]; intros H; [reflexivity|]. unfold arcs. cbn [flat_map fst snd]. fold (arcs l). rewrite app_length, map_length.
    unfold dkeys in *. cbn [map fold_right fst]. rewrite Nat2Z.inj_add, IH by (intros x b Hx; apply H; right; exact Hx).
    unfold degree0 at 2. rewrite (H u a (or_introl eq_refl)). reflexivity. }
  apply G. intros u a H. apply dget_In; assumption.
Qed.

Definition flip (p : Z * Z) : Z * Z := (snd p, fst p).

Lemma filter_split {A} (f : A -> bool) l : (length (filter f l) + length (filter (fun x => negb (f x)) l))%nat = length l.
Proof. induction l as [|x l IH]; [reflexivity|]. cbn [filter]. destruct (f x); cbn [negb length]; lia. Qed.

Lemma handshake g : undirected g -> loop_free g -> fold_right (fun u t => degree0 g u + t) 0 (dkeys g) = 2 * num_edges g.
Proof.
  intros H L. pose proof (undirected_wfd g H) as Hw. destruct H as (_ & _ & H1 & H2). rewrite <- arcs_length by apply Hw.
  unfold num_edges. rewrite edge_set_arcs. rewrite <- (map_length fst (arcs g)).
  pose proof (filter_split (fun p : Z * Z => snd p <? fst p) (map fst (arcs g))) as S.
  assert (A : forall u v, In (u, v) (map fst (arcs g)) <-> edge g u v).
  { intros u v. rewrite in_map_iff. split.
    - intros ([[x y] w] & E & Hin). cbn [fst] in E. injection E as -> ->. apply arcs_In in Hin; [|exact Hw]. exists w. exact Hin.
    - intros (w & W). exists (u, v, w). split; [reflexivity|]. apply arcs_In; [exact Hw|exact W]. }
  assert (P : Permutation (filter (fun p => snd p <? fst p) (map fst (arcs g))) (map flip (filter (fun p => negb (snd p <? fst p)) (map fst (arcs g))))).
  { apply NoDup_same_perm.
    - apply NoDup_filter, arcs_NoDup, Hw.
    - apply NoDup_map_inj; [apply NoDup_filter, arcs_NoDup, Hw|]. intros [a b] [c d] _ _ E. unfold flip in E. cbn [fst snd] in E. congruence.
    - intros [u v]. rewrite filter_In, A, in_map_iff. cbn [fst snd]. rewrite Z.ltb_lt. split.
      + intros ((w & W) & Lt). exists (v, u). split; [reflexivity|]. rewrite filter_In, A. cbn [fst snd]. split; [exists w; rewrite H2; exact W|].
        destruct (Z.ltb_spec u v); [lia|reflexivity].
      + intros ([x y] & E & Hin). unfold flip in E. cbn [fst snd] in E. injection E as -> ->. rewrite filter_In, A in Hin. cbn [fst snd] in Hin.
        destruct Hin as ((w & W) & X). split; [exists w; rewrite H2; exact W|]. apply negb_true_iff, Z.ltb_ge in X.
        destruct (Z.eq_dec u v) as [->|]; [|lia]. rewrite L in W. discriminate. }
  apply Permutation_length in P. rewrite map_length in P. lia.
Qed.

(** ** Graphs built by adding edges of prescribed weights *)
Lemma last_pair x y (L : list (Z * Z * Z)) : (exists u v w, In (u, v, w) L /\ same_pair u v x y) ->
  exists l1 u v w l2, L = l1 ++ (u, v, w) :: l2 /\ same_pair u v x y /\ forall u' v' w', In (u', v', w') l2 -> ~ same_pair u' v' x y.
Proof.
  induction L as [|[[a b] c] L IH]; intros (u & v & w & Hin & S); [destruct Hin|].
  assert (D : {exists u v w, In (u, v, w) L /\ same_pair u v x y} + {~ exists u v w, In (u, v, w) L /\ same_pair u v x y}).
  { clear. induction L as [|[[a b] c] L IH]; [right; intros (u & v & w & [] & _)|].
    destruct (same_pair_dec a b x y) as [S|S]; [left; exists a, b, c; split; [left; reflexivity|exact S]|].
    destruct IH as [I|I]; [left; destruct I as (u & v & w & Hin & S'); exists u, v, w; split; [right; exact Hin|exact S']|].
    right. intros (u & v & w & [E|Hin] & S'); [injection E as -> -> ->; contradiction|]. apply I. exists u, v, w. auto. }
  destruct D as [D|D].
  - destruct (IH D) as (l1 & u' & v' & w' & l2 & -> & S' & F). exists ((a, b, c) :: l1), u', v', w', l2. split; [reflexivity|]. auto.
  - destruct Hin as [E|Hin]; [|exfalso; apply D; exists u, v, w; auto]. injection E as -> -> ->.
    exists [], u, v, w, L. split; [reflexivity|]. split; [exact S|]. intros u' v' w' Hin S'. apply D. exists u', v', w'. auto.
Qed.

Lemma add_edges_fun (F : Z -> Z -> Z) L g : undirected g -> (forall x y, F x y = F y x) -> (forall u v w, In (u, v, w) L -> w = F u v) ->
  undirected (add_edges g L) /\
  (forall x, vertex (add_edges g L) x <-> vertex g x \/ exists u v w, In (u, v, w) L /\ (x = u \/ x = v)) /\
  (forall x y, ((exists u v w, In (u, v, w) L /\ same_pair u v x y) -> weight (add_edges g L) x y = Some (F x y)) /\
               ((forall u v w, In (u, v, w) L -> ~ same_pair u v x y) -> weight (add_edges g L) x y = weight g x y)).
Proof.
  intros H Fs HL. destruct (add_edges_ok L g H) as (A & B & C). split; [exact A|]. split; [exact B|]. intros x y. destruct (C x y) as (C1 & C2).
  split; [|exact C2]. intros E. destruct (last_pair x y L E) as (l1 & u & v & w & l2 & EL & S & N). rewrite (C1 l1 u v w l2 EL S N). f_equal.
  rewrite (HL u v w) by (rewrite EL; apply in_or_app; right; left; reflexivity). destruct S as [(-> & ->)|(-> & ->)]; auto.
Qed.

Lemma fold_left_flat_map {A B C} (f : A -> B -> A) (k : C -> list B) l : forall a,
  fold_left f (flat_map k l) a = fold_left (fun a x => fold_left f (k x) a) l a.
Proof. induction l as [|x l IH]; intros a; [reflexivity|]. cbn [flat_map fold_left]. rewrite fold_left_app. apply IH. Qed.

Lemma fold_left_map {A B C} (f : A -> B -> A) (k : C -> B) l : forall a, fold_left f (map k l) a = fold_left (fun a x => f a (k x)) l a.
Proof. induction l as [|x l IH]; intros a; [reflexivity|]. cbn [map fold_left]. apply IH. Qed.

Lemma fold_left_ext {A B} (f h : A -> B -> A) l : (forall a x, In x l -> f a x = h a x) -> forall a, fold_left f l a = fold_left h l a.
Proof.
  intros H. induction l as [|x l IH]; intros a; [reflexivity|]. cbn [fold_left]. rewrite (H a x) by (left; reflexivity). apply IH. intros b y Hy. apply H. right. exact Hy.
Qed.

Lemma add_edges_app g l l' : add_edges g (l ++ l') = add_edges (add_edges g l) l'.
Proof. apply fold_left_app. Qed.

(** A graph with vertices S and no edges. *)
Lemma vertices_only S : forall g, wfd g -> (forall x y, weight g x y = None) ->
  wfd (fold_left (fun h v => dset h v []) S g) /\ (forall x, vertex (fold_left (fun h v => dset h v []) S g) x <-> vertex g x \/ In x S) /\
  (forall x y, weight (fold_left (fun h v => dset h v []) S g) x y = None).
Proof.
  induction S as [|v S IH]; intros g H W; cbn [fold_left].
  - split; [exact H|]. split; [intros x; cbn [In]; tauto|exact W].
  - destruct (IH (dset g v [])) as (A & B & C).
    + apply wfd_dset; [exact H|constructor].
    + intros x y. rewrite weight_dset. destruct (v =? x); [reflexivity|apply W].
    + split; [exact A|]. split; [|exact C]. intros x. rewrite B, vertex_dset. cbn [In]. intuition.
Qed.

Lemma edgeless_undirected g : wfd g -> (forall x y, weight g x y = None) -> undirected g.
Proof. intros H W. apply undirected_intro; [exact H| |]; intros u v; [intros (w & X); rewrite W in X; discriminate|rewrite !W; reflexivity]. Qed.

(** ** induced_subgraph *)
Section Induced.
  Context (ord : list Z -> list Z) (g : graph) (S : list Z).
  Hypothesis Hord : forall l, Permutation (ord l) l.
  Hypothesis Hg : undirected g.

  Definition F (x y : Z) : Z := match weight g x y with Some w => w | None => 0 end.
  Definition irow (u : Z) : list (Z * Z * Z) :=
    map (fun v => (u, v, F u v)) (ord (filter (fun v => match weight g u v with Some _ => true | None => false end) S)).

  Lemma irow_In u a b w : In (a, b, w) (irow u) <-> a = u /\ In b S /\ edge g u b /\ w = F u b.
  Proof.
    unfold irow. rewrite in_map_iff. split.
    - intros (v & E & Hv). injection E as <- <- <-. apply (Permutation_in v (Hord _)) in Hv. apply filter_In in Hv as (Hv & X).
      split; [reflexivity|]. split; [exact Hv|]. split; [|reflexivity]. apply edge_weight. destruct (weight g u v); congruence.
    - intros (-> & Hb & He & ->). exists b. split; [reflexivity|]. apply (Permutation_in b (Permutation_sym (Hord _))). apply filter_In. split; [exact Hb|].
      apply edge_weight in He. destruct (weight g u b); congruence.
  Qed.

  Lemma induced_row_eq h u : vertex g u -> induced_row ord g S h u = Ret (add_edges h (irow u)).
  Proof.
    intros Hu. apply vertex_dget in Hu as (a & Ea). unfold induced_row, g_adj, dgetM at 1. rewrite Ea. cbn [bind].
    assert (E : filter (fun v => dmem a v) S = filter (fun v => match weight g u v with Some _ => true | None => false end) S).
    { apply filter_ext. intros v. unfold weight, dmem. rewrite Ea. reflexivity. }
    rewrite E. unfold irow, add_edges. rewrite fold_left_map.
    assert (G : forall l h, (forall v, In v l -> edge g u v) ->
      foldM (fun h v => do w <- dgetM a v; Ret (add_edge h u v w)) l h = Ret (fold_left (fun h v => add_edge h u v (F u v)) l h)).
    { induction l as [|v l IH]; intros h' H; [reflexivity|]. cbn [foldM fold_left].
      destruct (H v (or_introl eq_refl)) as (w & W). unfold F at 2. rewrite W. unfold weight in W. rewrite Ea in W. unfold dgetM. rewrite W. cbn [bind].
      apply IH. intros x Hx. apply H. right. exact Hx. }
    rewrite G; [reflexivity|]. intros v Hv. apply (Permutation_in v (Hord _)) in Hv. apply filter_In in Hv as (_ & X).
    apply edge_weight. destruct (weight g u v); congruence.
  Qed.

  Lemma induced_eq : (forall u, In u S -> vertex g u) ->
    induced_subgraph ord g S = Ret (add_edges (fold_left (fun h v => dset h v []) S empty_graph) (flat_map irow S)).
  Proof.
    intros HS. unfold induced_subgraph.
    assert (G : forall l h, (forall u, In u l -> vertex g u) -> foldM (induced_row ord g S) l h = Ret (add_edges h (flat_map irow l))).
    { induction l as [|u l IH]; intros h H; [reflexivity|]. cbn [foldM flat_map]. rewrite induced_row_eq by (apply H; left; reflexivity). cbn [bind].
      rewrite IH by (intros x Hx; apply H; right; exact Hx). rewrite add_edges_app. reflexivity. }
    apply G, HS.
  Qed.

  Lemma induced_ok : (forall u, In u S -> vertex g u) -> exists h, induced_subgraph ord g S = Ret h /\ undirected h /\
    (forall x, vertex h x <-> In x S) /\
    (forall x y, (In x S /\ In y S -> weight h x y = weight g x y) /\ (~ (In x S /\ In y S) -> weight h x y = None)).
  Proof.
    intros HS. eexists. split; [apply induced_eq, HS|].
    destruct (vertices_only S empty_graph) as (A & B & C); [split; [constructor|discriminate]|reflexivity|].
    assert (Hsym : forall x y, weight g x y = weight g y x) by apply Hg.
    destruct (add_edges_fun F (flat_map irow S) _ (edgeless_undirected _ A C)) as (D & E & G).
    - intros x y. unfold F. rewrite Hsym. reflexivity.
    - intros u v w H. apply in_flat_map in H as (x & _ & H). apply irow_In in H as (-> & _ & _ & ->). reflexivity.
    - split; [exact D|]. split.
      + intros x. rewrite E, B. split.
        * intros [[[]|H]|(u & v & w & H & X)]; [exact H|]. apply in_flat_map in H as (z & Hz & H). apply irow_In in H as (-> & Hv & _). destruct X as [-> | ->]; assumption.
        * intros H. left. right. exact H.
      + intros x y. destruct (G x y) as (G1 & G2). split.
        * intros (Hx & Hy). destruct (weight g x y) as [w|] eqn:W.
          -- rewrite G1; [unfold F; rewrite W; reflexivity|]. exists x, y, (F x y). split; [|left; auto].
             apply in_flat_map. exists x. split; [exact Hx|]. apply irow_In. repeat split; auto. exists w. exact W.
          -- rewrite G2; [apply C|]. intros u v w H Sp. apply in_flat_map in H as (z & Hz & H). apply irow_In in H as (-> & Hv & (w' & He) & _).
             destruct Sp as [(-> & ->)|(-> & ->)]; [congruence|]. rewrite Hsym in He. congruence.
        * intros Hn. rewrite G2; [apply C|]. intros u v w H Sp. apply in_flat_map in H as (z & Hz & H). apply irow_In in H as (-> & Hv & _).
          apply Hn. destruct Sp as [(-> & ->)|(-> & ->)]; auto.
  Qed.

  Lemma induced_error : (exists u, In u S /\ ~ vertex g u) -> induced_subgraph ord g S = Raise KeyError.
  Proof.
    intros (u & Hu & Nu). unfold induced_subgraph. generalize (fold_left (fun h v => dset h v []) S empty_graph).
    assert (G : forall l h, In u l -> foldM (induced_row ord g S) l h = Raise KeyError).
    { induction l as [|x l IH]; intros h H; [destruct H|]. cbn [foldM]. destruct (dget g x) as [a|] eqn:E.
      - rewrite induced_row_eq by (apply vertex_dget; eauto). cbn [bind]. apply IH. destruct H as [->|H]; [|exact H].
        exfalso. apply Nu, vertex_dget. eauto.
      - unfold induced_row, g_adj, dgetM. rewrite E. reflexivity. }
    intros h. apply G, Hu.
  Qed.
End Induced.

(** ** complement *)
Section Complement.
  Context (g : graph).
  Hypothesis Hg : undirected g.

  Definition crow (before : list Z) (u : Z) : list (Z * Z * Z) :=
    map (fun v => (u, v, 1)) (filter (fun v => match weight g u v with Some _ => false | None => true end) before).

  Lemma complement_row_eq h u l : (forall v, In v l -> vertex g v) -> complement_row g h u l = Ret (add_edges h (crow l u)).
  Proof.
    unfold complement_row. revert h. induction l as [|v l IH]; intros h H; [reflexivity|]. cbn [foldM].
    destruct (proj1 (vertex_dget g v) (H v (or_introl eq_refl))) as (a & Ea). unfold g_adj, dgetM. rewrite Ea. cbn [bind].
    unfold g_adj, dgetM in IH. rewrite IH by (intros x Hx; apply H; right; exact Hx). f_equal. unfold crow. cbn [filter].
    assert (X : weight g u v = dget a u) by (rewrite (proj2 (proj2 (proj2 Hg)) u v); unfold weight; rewrite Ea; reflexivity).
    rewrite X. unfold dmem. destruct (dget a u); reflexivity.
  Qed.

  Fixpoint crows (before vs : list Z) : list (Z * Z * Z) :=
    match vs with [] => [] | u :: vs' => crow before u ++ crows (before ++ [u]) vs' end.

  Lemma complement_rows_eq vs : forall h before, (forall v, In v before \/ In v vs -> vertex g v) ->
    complement_rows g h before vs = Ret (add_edges h (crows before vs)).
  Proof.
    induction vs as [|u vs IH]; intros h before H; [reflexivity|]. cbn [complement_rows crows]. rewrite complement_row_eq by auto. cbn [bind].
    rewrite IH; [rewrite add_edges_app; reflexivity|]. intros v [Hv|Hv]; apply H; [|cbn [In]; auto]. apply in_app_or in Hv as [Hv|[->|[]]]; cbn [In]; auto.
  Qed.

  Lemma crow_In before u a b w : In (a, b, w) (crow before u) <-> a = u /\ In b before /\ weight g u b = None /\ w = 1.
  Proof.
    unfold crow. rewrite in_map_iff. split.
    - intros (v & E & Hv). injection E as <- <- <-. apply filter_In in Hv as (Hv & X). destruct (weight g u v); [discriminate|]. auto.
    - intros (-> & Hb & W & ->). exists b. split; [reflexivity|]. apply filter_In. rewrite W. auto.
  Qed.

  Lemma crows_In vs : forall before a b w, In (a, b, w) (crows before vs) ->
    In a vs /\ (In b before \/ In b vs) /\ weight g a b = None /\ w = 1 /\ (NoDup (before ++ vs) -> a <> b).
  Proof.
    induction vs as [|u vs IH]; intros before a b w H; [destruct H|]. cbn [crows] in H. apply in_app_or in H as [H|H].
    - apply crow_In in H as (-> & Hb & W & ->). repeat split; auto; [left; reflexivity|]. intros N ->. apply NoDup_remove_2 in N. apply N, in_or_app. auto.
    - destruct (IH _ _ _ _ H) as (A & B & C & D & E). split; [right; exact A|]. split.
      + destruct B as [B|B]; [|cbn [In]; auto]. apply in_app_or in B as [B|[->|[]]]; cbn [In]; auto.
      + split; [exact C|]. split; [exact D|]. intros N. apply E. rewrite <- app_assoc. exact N.
  Qed.

  Lemma crows_all vs : forall before x y, (In x before \/ In x vs) -> (In y before \/ In y vs) -> ~ (In x before /\ In y before) -> x <> y -> weight g x y = None ->
    exists u v w, In (u, v, w) (crows before vs) /\ same_pair u v x y.
  Proof.
    assert (Hsym : forall x y, weight g x y = weight g y x) by apply Hg.
    induction vs as [|u vs IH]; intros before x y Hx Hy N Hne W; [cbn [In] in *; tauto|]. cbn [crows].
    destruct (in_dec Z.eq_dec x (before ++ [u])) as [ix|ix], (in_dec Z.eq_dec y (before ++ [u])) as [iy|iy].
    - apply in_app_or in ix, iy. cbn [In] in ix, iy. destruct ix as [ix|[<-|[]]], iy as [iy|[E|[]]]; try (exfalso; tauto); try congruence.
      + subst y. exists u, x, 1. split; [|right; auto]. apply in_or_app. left. apply crow_In. rewrite Hsym. auto.
      + exists u, y, 1. split; [|left; auto]. apply in_or_app. left. apply crow_In. auto.
    - destruct (IH (before ++ [u]) x y) as (a & b & w & Hin & S); [auto| |intros (_ & H); contradiction|exact Hne|exact W|].
      { right. destruct Hy as [Hy|[->|Hy]]; [exfalso; apply iy, in_or_app; auto|exfalso; apply iy, in_or_app; right; left; reflexivity|exact Hy]. }
      exists a, b, w. split; [apply in_or_app; auto|exact S].
    - destruct (IH (before ++ [u]) x y) as (a & b & w & Hin & S); [|auto|intros (H & _); contradiction|exact Hne|exact W|].
      { right. destruct Hx as [Hx|[->|Hx]]; [exfalso; apply ix, in_or_app; auto|exfalso; apply ix, in_or_app; right; left; reflexivity|exact Hx]. }
      exists a, b, w. split; [apply in_or_app; auto|exact S].
    - destruct (IH (before ++ [u]) x y) as (a & b & w & Hin & S); [| |intros (H & _); contradiction|exact Hne|exact W|].
      { right. destruct Hx as [Hx|[->|Hx]]; [exfalso; apply ix, in_or_app; auto|exfalso; apply ix, in_or_app; right; left; reflexivity|exact Hx]. }
      { right. destruct Hy as [Hy|[->|Hy]]; [exfalso; apply iy, in_or_app; auto|exfalso; apply iy, in_or_app; right; left; reflexivity|exact Hy]. }
      exists a, b, w. split; [apply in_or_app; auto|exact S].
  Qed.

  Lemma complement_ok : exists h, complement g = Ret h /\ undirected h /\ (forall x, vertex h x <-> vertex g x) /\
    (forall x y, (vertex g x /\ vertex g y /\ x <> y /\ weight g x y = None -> weight h x y = Some 1) /\
                 (~ (vertex g x /\ vertex g y /\ x <> y /\ weight g x y = None) -> weight h x y = None)).
  Proof.
    unfold complement. assert (V : forall v, In v (vertices g) <-> vertex g v) by (intros v; apply zsort_In).
    rewrite complement_rows_eq by (intros v [[]|Hv]; apply V, Hv). eexists. split; [reflexivity|].
    destruct (add_vertices_ok (vertices g) empty_graph) as (A & B & C); [split; [constructor|discriminate]|].
    fold (add_vertices empty_graph (vertices g)).
    assert (N : NoDup (vertices g)) by (apply (Permutation_NoDup (Permutation_sym (zsort_perm _))); apply (proj1 Hg)).
    destruct (add_edges_fun (fun _ _ => 1) (crows [] (vertices g)) _ (edgeless_undirected _ A C)) as (D & E & G).
    - reflexivity.
    - intros u v w H. apply crows_In in H. apply H.
    - split; [exact D|]. split.
      + intros x. rewrite E, B. split.
        * intros [[[]|H]|(u & v & w & H & X)]; [apply V, H|]. apply crows_In in H as (H1 & [[]|H2] & _). apply V. destruct X as [-> | ->]; assumption.
        * intros H. left. right. apply V, H.
      + intros x y. destruct (G x y) as (G1 & G2). split.
        * intros (Hx & Hy & Hne & W). apply G1. apply crows_all; [right; apply V, Hx|right; apply V, Hy|intros ([] & _)|exact Hne|exact W].
        * intros Hn. rewrite G2; [apply C|]. intros u v w H Sp. apply crows_In in H as (H1 & [[]|H2] & W & _ & Hne). specialize (Hne N). apply V in H1, H2.
          apply Hn. destruct Sp as [(-> & ->)|(-> & ->)]; repeat split; auto. rewrite (proj2 (proj2 (proj2 Hg))). exact W.
  Qed.
End Complement.

(** ** Vertices of extreme degree *)
Lemma argmaxM_ok (g : graph) l : forall best bk, (forall u, In u l -> vertex g u) -> bk = degree0 g best ->
  exists u, argmaxM (degree g) best bk l = Ret u /\ (u = best \/ In u l) /\ bk <= degree0 g u /\ forall v, In v l -> degree0 g v <= degree0 g u.
Proof.
  induction l as [|x l IH]; intros best bk H E; cbn [argmaxM].
  - exists best. split; [reflexivity|]. split; [auto|]. split; [lia|]. intros v [].
  - rewrite degree_length. destruct (proj1 (vertex_dget g x) (H x (or_introl eq_refl))) as (a & Ea).
    assert (Dx : degree0 g x = Z.of_nat (length a)) by (unfold degree0; rewrite Ea; reflexivity).
    rewrite Ea. cbn [bind]. assert (H' : forall u, In u l -> vertex g u) by (intros u Hu; apply H; right; exact Hu).
    destruct (Z.ltb_spec bk (Z.of_nat (length a))).
    + destruct (IH x _ H' (eq_sym Dx)) as (u & R & I & B & M). exists u. split; [exact R|]. split; [cbn [In]; intuition|]. split; [lia|].
      intros v [<-|Hv]; [lia|auto].
    + destruct (IH best bk H' E) as (u & R & I & B & M). exists u. split; [exact R|]. split; [cbn [In]; intuition|]. split; [lia|].
      intros v [<-|Hv]; [lia|auto].
Qed.

Lemma argminM_ok (g : graph) l : forall best bk, (forall u, In u l -> vertex g u) -> bk = degree0 g best ->
  exists u, argminM (degree g) best bk l = Ret u /\ (u = best \/ In u l) /\ degree0 g u <= bk /\ forall v, In v l -> degree0 g u <= degree0 g v.
Proof.
  induction l as [|x l IH]; intros best bk H E; cbn [argminM].
  - exists best. split; [reflexivity|]. split; [auto|]. split; [lia|]. intros v [].
  - rewrite degree_length. destruct (proj1 (vertex_dget g x) (H x (or_introl eq_refl))) as (a & Ea).
    assert (Dx : degree0 g x = Z.of_nat (length a)) by (unfold degree0; rewrite Ea; reflexivity).
    rewrite Ea. cbn [bind]. assert (H' : forall u, In u l -> vertex g u) by (intros u Hu; apply H; right; exact Hu).
    destruct (Z.ltb_spec (Z.of_nat (length a)) bk).
    + destruct (IH x _ H' (eq_sym Dx)) as (u & R & I & B & M). exists u. split; [exact R|]. split; [cbn [In]; intuition|]. split; [lia|].
      intros v [<-|Hv]; [lia|auto].
    + destruct (IH best bk H' E) as (u & R & I & B & M). exists u. split; [exact R|]. split; [cbn [In]; intuition|]. split; [lia|].
      intros v [<-|Hv]; [lia|auto].
Qed.

Lemma maximum_degree_vertex_ok ord g : (forall l, Permutation (ord l) l) -> g <> [] ->
  exists u, maximum_degree_vertex ord g = Ret u /\ vertex g u /\ forall v, vertex g v -> degree0 g v <= degree0 g u.
Proof.
  intros Hord Hne. unfold maximum_degree_vertex. pose proof (Hord (dkeys g)) as P. destruct (ord (dkeys g)) as [|x l].
  - apply Permutation_nil in P. destruct g; [congruence|discriminate].
  - assert (H : forall u, In u (x :: l) <-> vertex g u) by (intros u; split; intros Hu; [eapply Permutation_in; [exact P|exact Hu]|eapply Permutation_in; [apply Permutation_sym, P|exact Hu]]).
    rewrite degree_length. destruct (proj1 (vertex_dget g x) (proj1 (H x) (or_introl eq_refl))) as (a & Ea). rewrite Ea. cbn [bind].
    destruct (argmaxM_ok g l x (Z.of_nat (length a))) as (u & R & I & B & M).
    + intros u Hu. apply H. right. exact Hu.
    + unfold degree0. rewrite Ea. reflexivity.
    + exists u. split; [exact R|]. split; [apply H; destruct I; [left; auto|right; auto]|]. intros v Hv. apply H in Hv as [<-|Hv]; [|auto].
      unfold degree0 at 1. rewrite Ea. exact B.
Qed.

Lemma minimum_degree_vertex_ok ord g : (forall l, Permutation (ord l) l) -> g <> [] ->
  exists u, minimum_degree_vertex ord g = Ret u /\ vertex g u /\ forall v, vertex g v -> degree0 g u <= degree0 g v.
Proof.
  intros Hord Hne. unfold minimum_degree_vertex. pose proof (Hord (dkeys g)) as P. destruct (ord (dkeys g)) as [|x l].
  - apply Permutation_nil in P. destruct g; [congruence|discriminate].
  - assert (H : forall u, In u (x :: l) <-> vertex g u) by (intros u; split; intros Hu; [eapply Permutation_in; [exact P|exact Hu]|eapply Permutation_in; [apply Permutation_sym, P|exact Hu]]).
    rewrite degree_length. destruct (proj1 (vertex_dget g x) (proj1 (H x) (or_introl eq_refl))) as (a & Ea). rewrite Ea. cbn [bind].
    destruct (argminM_ok g l x (Z.of_nat (length a))) as (u & R & I & B & M).
    + intros u Hu. apply H. right. exact Hu.
    + unfold degree0. rewrite Ea. reflexivity.
    + exists u. split; [exact R|]. split; [apply H; destruct I; [left; auto|right; auto]|]. intros v Hv. apply H in Hv as [<-|Hv]; [|auto].
      unfold degree0 at 2. rewrite Ea. exact B.
Qed.

(** The order 'induced': each vertex has least degree in what is left. *)
Fixpoint min_degree_order (g : graph) (l : list Z) : Prop :=
  match l with
  | [] => g = []
  | u :: l' => vertex g u /\ (forall v, vertex g v -> degree0 g u <= degree0 g v) /\ min_degree_order (delete_vertex g u) l'
  end.

Lemma delete_vertex_length g u : NoDup (dkeys g) -> vertex g u -> S (length (delete_vertex g u)) = length g.
Proof.
  intros N Hu. unfold delete_vertex. pose proof (proj2 (dmem_In g u) Hu) as E. rewrite E, map_length.
  clear E. unfold vertex in Hu. unfold dkeys in N. induction g as [|[x a] g IH]; [destruct Hu|]. cbn [ddel]. destruct (Z.eqb_spec x u) as [->|Hne]; [reflexivity|].
  cbn [length map fst] in *. f_equal. inversion N as [|? ? N1 N2]; subst. destruct Hu as [->|Hu]; [congruence|]. apply IH; assumption.
Qed.

Lemma induced_order_ok (ord : nat -> list Z -> list Z) : (forall n l, Permutation (ord n l) l) -> forall n g, undirected g -> length g = n ->
  exists l, induced_order ord n g = Ret l /\ min_degree_order g l /\ Permutation l (dkeys g).
Proof.
  intros Hord. induction n as [|n IH]; intros g Hg E; cbn [induced_order].
  - destruct g; [|discriminate]. exists []. repeat split. constructor.
  - destruct (minimum_degree_vertex_ok (ord (S n)) g (Hord (S n))) as (u & R & Hu & M); [destruct g; discriminate|]. rewrite R. cbn [bind].
    pose proof (delete_vertex_length g u (proj1 Hg) Hu) as L. pose proof (delete_vertex_undirected g u Hg) as Hd.
    destruct (IH (delete_vertex g u) Hd ltac:(lia)) as (l & Rl & O & P). rewrite Rl. cbn [bind].
    exists (u :: l). split; [reflexivity|]. split; [cbn [min_degree_order]; auto|].
    destruct (delete_vertex_ok g u (undirected_wfd g Hg)) as (_ & V & _).
    assert (Nl : NoDup l) by (apply (Permutation_NoDup (Permutation_sym P)); apply (proj1 Hd)).
    apply NoDup_same_perm; [|apply (proj1 Hg)|].
    + constructor; [|exact Nl]. intros H. apply (Permutation_in u P) in H. apply V in H. destruct H as (_ & H). congruence.
    + intros x. cbn [In]. split.
      * intros [<-|H]; [exact Hu|]. apply (Permutation_in x P) in H. apply V in H. apply H.
      * intros H. destruct (Z.eq_dec u x) as [->|Hne]; [auto|]. right. apply (Permutation_in x (Permutation_sym P)). apply V. split; [exact H|congruence].
Qed.

Lemma insert_by_perm f x l : Permutation (insert_by f x l) (x :: l).
Proof. induction l as [|y l IH]; cbn [insert_by]; [reflexivity|]. destruct (f x <=? f y); [reflexivity|]. rewrite IH. apply perm_swap. Qed.
Lemma sort_by_perm f l : Permutation (sort_by f l) l.
Proof. induction l as [|x l IH]; cbn [sort_by fold_right]; [constructor|]. rewrite insert_by_perm. constructor. exact IH. Qed.
Lemma sort_by_sorted f l : StronglySorted (fun x y => f x <= f y) (sort_by f l).
Proof.
  induction l as [|x l IH]; cbn [sort_by fold_right]; [constructor|]. fold (sort_by f l). revert IH. generalize (sort_by f l) as s.
  induction 1 as [|y s S IH F]; cbn [insert_by]; [repeat constructor|]. destruct (Z.leb_spec (f x) (f y)).
  - constructor; [constructor; assumption|]. constructor; [exact H|]. rewrite Forall_forall in *. intros z Hz. specialize (F z Hz). lia.
  - constructor; [exact IH|]. rewrite Forall_forall in *. intros z Hz. apply (Permutation_in z (insert_by_perm f x s)) in Hz. destruct Hz as [<-|Hz]; [lia|auto].
Qed.
