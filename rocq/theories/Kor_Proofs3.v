(** * Proofs about [korman]: the start and the result *)
From Coq Require Import ZArith List Lia Bool Permutation.
From Verif Require Import Base Py Dict Lists Lists2 Graph_Model Graph_Spec Graph_Proofs Trav_Model Color_Model Color_Spec Color_Proofs Color_Proofs2
  Cliq_Model Cliq_Spec MaxCliq_Model MaxCliq_Proofs MaxCliq_Proofs2 MaxCliq_Props Kor_Model Kor_Proofs Kor_Proofs2.
Import ListNotations.
Open Scope Z_scope.

(** ** The classes *)
Lemma put_classes best : 0 <= best -> forall bc, (forall v c, In (v, c) bc -> 1 <= c <= best) ->
  foldM put_class bc (repeat [] (Z.to_nat best)) = Ret (color_classes 1 best bc).
Proof.
  intros B0. induction bc as [|(v, c) bc IH] using rev_ind; intros H.
  - cbn [foldM]. f_equal. unfold color_classes. cbn [filter map].
    apply (nth_ext _ _ [] []); [rewrite repeat_length, map_length, zrange_length; lia|]. intros i Hi. rewrite repeat_length in Hi. rewrite nth_repeat.
    symmetry. exact (map_nth (fun _ : Z => @nil Z) (zrange 1 (1 + best)) 0 i).
  - rewrite foldM_app, IH by (intros x y Hxy; apply (H x y), in_app_iff; left; exact Hxy). cbn [bind foldM].
    assert (Hc := H v c ltac:(apply in_app_iff; right; left; reflexivity)).
    assert (L : forall l, length (color_classes 1 best l) = Z.to_nat best) by (intros l; unfold color_classes; rewrite map_length, zrange_length; lia).
    assert (Nth : forall l i, (i < Z.to_nat best)%nat -> nth i (color_classes 1 best l) [] = map fst (filter (fun uc => snd uc =? 1 + Z.of_nat i) l)).
    { intros l i Hi. unfold color_classes. rewrite (nth_indep _ [] ((fun c => map fst (filter (fun uc : Z * Z => snd uc =? c) l)) 0)) by (rewrite map_length, zrange_length; lia).
      rewrite (map_nth (fun c => map fst (filter (fun uc : Z * Z => snd uc =? c) l))), zrange_nth by lia. reflexivity. }
    unfold put_class. cbn [fst snd]. rewrite (pyget_nth _ (c - 1) []) by (rewrite L; lia). cbn [bind].
    rewrite pyset_upd by (rewrite L; lia). cbn [bind]. f_equal.
    apply (nth_ext _ _ [] []); [rewrite upd_length, !L; reflexivity|]. intros i Hi. rewrite upd_length, L in Hi.
    rewrite upd_nth by (rewrite L; lia). rewrite !Nth by lia. rewrite filter_app, map_app. cbn [filter fst snd].
    destruct (Nat.eqb_spec i (Z.to_nat (c - 1))) as [->|D].
    + replace (1 + Z.of_nat (Z.to_nat (c - 1))) with c by lia. rewrite Z.eqb_refl. reflexivity.
    + destruct (Z.eqb_spec c (1 + Z.of_nat i)); [lia|]. cbn [map]. rewrite app_nil_r. reflexivity.
Qed.

(** ** The start *)
Lemma init_ok g vs : undirected g -> NoDup vs -> (forall u, In u vs <-> vertex g u) -> forall C, NoDup C -> (forall u, In u C -> vertex g u) ->
  exists color order unc, fold_left k_init C (0, map (fun u => (u, 0)) vs, [], vs) = (Z.of_nat (length C), color, order, unc) /\
    ctot g color /\ (forall i, (i < length C)%nat -> cf color (nth i C 0) = Z.of_nat i + 1) /\ (forall u, ~ In u C -> cf color u = 0) /\
    oks order C /\ NoDup unc /\ (forall u, In u unc <-> vertex g u /\ ~ In u C).
Proof.
  intros Hg Dv Hv. induction C as [|s C IH] using rev_ind; intros DC VC.
  - assert (Dk : dkeys (map (fun u => (u, 0)) vs) = vs) by (unfold dkeys; rewrite map_map; apply map_id).
    exists (map (fun u => (u, 0)) vs), [], vs. split; [reflexivity|]. split; [split; [rewrite Dk; exact Dv|intros u; rewrite Dk; apply Hv]|].
    split; [cbn; lia|]. split.
    { intros u _. unfold cf. destruct (dget (map (fun u => (u, 0)) vs) u) as [c|] eqn:E; [|reflexivity]. apply dget_Some_In, in_map_iff in E as (w & E & _). congruence. }
    split; [intros i Hi; cbn in Hi; lia|]. split; [exact Dv|]. intros u. rewrite Hv. cbn. tauto.
  - assert (DC0 := NoDup_remove_1 _ _ _ DC). assert (NsC := NoDup_remove_2 _ _ _ DC). rewrite app_nil_r in DC0, NsC.
    destruct IH as (color & order & unc & E & T & Ci & Z0 & O & D & U); [exact DC0|intros u Hu; apply VC, in_app_iff; left; exact Hu|].
    assert (Vs : vertex g s) by (apply VC, in_app_iff; right; left; reflexivity).
    rewrite fold_left_app, E. cbn [fold_left k_init]. exists (dset color s (Z.of_nat (length C) + 1)), (dset order (Z.of_nat (length C)) s), (without unc s).
    rewrite app_length. cbn [length]. split; [repeat f_equal; lia|]. split; [apply ctot_dset; assumption|]. split; [|split; [|split; [|split]]].
    + intros i Hi. rewrite cf_dset. destruct (Nat.eq_dec i (length C)) as [->|Di].
      * rewrite nth_middle, Z.eqb_refl. reflexivity.
      * rewrite app_nth1 by lia. destruct (Z.eqb_spec s (nth i C 0)) as [Es|_]; [exfalso; apply NsC; rewrite Es; apply nth_In; lia|]. apply Ci. lia.
    + intros u Hu. rewrite in_app_iff in Hu. cbn [In] in Hu. rewrite cf_dset. destruct (Z.eqb_spec s u) as [->|]; [tauto|]. apply Z0. tauto.
    + apply (oks_snoc g), O.
    + apply without_nodup, D.
    + intros u. rewrite without_In, U, in_app_iff. cbn [In]. split.
      * intros ((Vu & Nu) & Du). split; [exact Vu|]. intros [H|[H|[]]]; [contradiction|congruence].
      * intros (Vu & Nu). split; [split; [exact Vu|tauto]|]. intros ->. tauto.
Qed.

(** ** The result *)
Lemma coloured_map g d best : undirected g -> 0 < best -> coloured g d best -> (forall f, ~ fine g best f) -> proper_map g 1 best d.
Proof.
  intros Hg B0 ((D & K) & R & E) M.
  assert (Gf : forall v c, In (v, c) d -> cf d v = c) by (intros v c H; unfold cf; rewrite (dget_In d v c D H); reflexivity).
  assert (Kv : forall v c, In (v, c) d -> vertex g v) by (intros v c H; apply K; apply in_map_iff; exists (v, c); split; [reflexivity|exact H]).
  split; [exact D|]. split; [intros v; symmetry; apply K|]. split.
  - intros c. split.
    + intros (v & H). specialize (R v (Kv v c H)). rewrite (Gf v c H) in R. lia.
    + intros Hc. destruct (in_dec Z.eq_dec c (map snd d)) as [H|H].
      * apply in_map_iff in H as ((v, c') & <- & H). exists v. exact H.
      * exfalso. assert (Nc : forall v, vertex g v -> cf d v <> c).
        { intros v Hv Ev. apply H. apply K, dget_key in Hv as (c' & Eg). assert (c' = c) as -> by (unfold cf in Ev; rewrite Eg in Ev; exact Ev).
          apply in_map_iff. exists (v, c). split; [reflexivity|apply dget_Some_In, Eg]. }
        apply (M (fun v => if cf d v <? c then cf d v else cf d v - 1)). split.
        -- intros v Hv. specialize (R v Hv). specialize (Nc v Hv). destruct (Z.ltb_spec (cf d v) c); lia.
        -- intros u v Euv. specialize (E u v Euv). assert (Nu := Nc u (edge_vertex g u v Euv)). assert (Nv : cf d v <> c) by (apply Nc; destruct Hg as (_ & _ & V & _); apply (V u v Euv)).
           destruct (Z.ltb_spec (cf d u) c); destruct (Z.ltb_spec (cf d v) c); lia.
  - intros u v c c' Hu Hv Euv Ec. apply (E u v Euv). rewrite (Gf u c Hu), (Gf v c' Hv). exact Ec.
Qed.

Lemma coloured_chromatic g d best : coloured g d best -> (forall B f, B <= best -> ~ fine g B f) -> chromatic_number g best.
Proof.
  intros (_ & R & E) M. split; [exists (cf d); split; assumption|]. intros k' (f & F1 & F2). destruct (Z_le_gt_dec best k') as [H|H]; [exact H|]. exfalso.
  apply (M (k' + 1) f); [lia|]. split; [intros v Hv; specialize (F1 v Hv); lia|exact F2].
Qed.

Lemma result_ok g d best classes found initial : undirected g -> 0 < best -> the_best initial found = d -> coloured g d best -> (forall B f, B <= best -> ~ fine g B f) ->
  exists c, k_result classes best found initial = Ret (best, c) /\ chromatic_number g best /\
    match c with Classes L => classes = true /\ proper_classes g best L | ColorMap cm => classes = false /\ proper_map g 1 best cm end.
Proof.
  intros Hg B0 Ed C M. assert (PM := coloured_map g d best Hg B0 C (fun f => M best f ltac:(lia))). unfold k_result.
  fold (the_best initial found). rewrite Ed. destruct classes.
  - rewrite put_classes; [|lia|].
    + cbn [bind]. exists (Classes (color_classes 1 best d)). split; [reflexivity|]. split; [eapply coloured_chromatic; eassumption|]. split; [reflexivity|]. apply classes_ok; [exact Hg|lia|exact PM].
    + intros v c H. destruct PM as (_ & _ & Cv & _). assert (1 <= c < 1 + best); [apply Cv; exists v; exact H|lia].
  - exists (ColorMap d). split; [reflexivity|]. split; [eapply coloured_chromatic; eassumption|]. split; [reflexivity|exact PM].
Qed.

Lemma initial_coloured g cm k : proper_map g 0 k cm -> coloured g (map (fun vc => (fst vc, snd vc + 1)) cm) k.
Proof.
  intros (A & B & C & D).
  assert (Dk : dkeys (map (fun vc : Z * Z => (fst vc, snd vc + 1)) cm) = dkeys cm) by (unfold dkeys; rewrite map_map; reflexivity).
  assert (G : forall u, vertex g u -> exists c, In (u, c) cm /\ cf (map (fun vc : Z * Z => (fst vc, snd vc + 1)) cm) u = c + 1).
  { intros u Hu. apply B, dget_key in Hu as (c & E). exists c. split; [apply dget_Some_In, E|]. unfold cf.
    rewrite (dget_map (fun c => c + 1) cm u), E. reflexivity. }
  split; [split; [rewrite Dk; exact A|intros u; rewrite Dk; symmetry; apply B]|]. split.
  - intros u Hu. destruct (G u Hu) as (c & Hc & ->). assert (0 <= c < 0 + k) by (apply C; exists u; exact Hc). lia.
  - intros u v E. destruct (in_dec Z.eq_dec u (dkeys cm)) as [Hu|Hu], (in_dec Z.eq_dec v (dkeys cm)) as [Hv|Hv].
    + destruct (G u (proj2 (B u) Hu)) as (c & Hc & ->). destruct (G v (proj2 (B v) Hv)) as (c' & Hc' & ->). specialize (D u v c c' Hc Hc' E). lia.
    + destruct (G u (proj2 (B u) Hu)) as (c & Hc & ->). assert (0 <= c < 0 + k) by (apply C; exists u; exact Hc).
      replace (cf _ v) with 0; [lia|]. unfold cf. replace (dget _ v) with (@None Z); [reflexivity|]. symmetry. apply dget_None. rewrite Dk. exact Hv.
    + exfalso. apply Hu, B, (edge_vertex g u v E).
    + exfalso. apply Hu, B, (edge_vertex g u v E).
Qed.

Lemma map_few g cm k : undirected g -> 0 <= k -> proper_map g 0 k cm -> k <= Z.of_nat (length (vertices g)).
Proof.
  intros Hg K0 (A & B & C & D).
  assert (length (zrange 0 k) <= length (map snd cm))%nat as H.
  { apply NoDup_incl_length; [apply zrange_NoDup|]. intros c Hc. apply zrange_In in Hc. destruct (proj2 (C c) ltac:(lia)) as (v & Hv). apply in_map_iff. exists (v, c). split; [reflexivity|exact Hv]. }
  assert (length (map fst cm) <= length (vertices g))%nat as H2.
  { apply NoDup_incl_length; [exact A|]. intros v Hv. unfold vertices. apply zsort_In. apply B, Hv. }
  rewrite zrange_length, map_length in H. rewrite map_length in H2. lia.
Qed.

Lemma korman_ok g ord0 ord classes : undirected g -> loop_free g -> g <> [] -> (forall u a, In (u, a) g -> a <> []) ->
  (forall l, Permutation (ord0 l) l) -> (forall st l, Permutation (ord st l) l) ->
  exists k c, korman g ord0 ord classes = Ret (k, c) /\ chromatic_number g k /\
    match c with Classes L => classes = true /\ proper_classes g k L | ColorMap cm => classes = false /\ proper_map g 1 k cm end.
Proof.
  intros Hg Hl Ne Hi Ho0 Ho. unfold korman, korman_upto.
  destruct (dsatur_ok g Hg Hl ord0 false Ho0 Ne) as (cm & k0 & E & PM & K0 & _). rewrite E. cbn [bind].
  destruct (C65_ostergard g Hg Hl Ne) as (size & C & Eo & (DC & VC & EC) & Es & Mx). rewrite Eo. cbn [bind].
  assert (Dv : NoDup (vertices g)) by (unfold vertices; eapply Permutation_NoDup; [symmetry; apply zsort_perm|apply Hg]).
  assert (Hv : forall u, In u (vertices g) <-> vertex g u) by (intros u; unfold vertices; apply zsort_In).
  destruct (init_ok g (vertices g) Hg Dv Hv C DC VC) as (color & order & unc & Ei & T & Ci & Z0 & O & D & U). rewrite Ei.
  assert (C0 := initial_coloured g cm k0 PM).
  assert (NeC : C <> []).
  { intros ->. destruct g as [|(u, a) g'] eqn:Eg; [congruence|]. rewrite <- Eg in *. cbn in Es. specialize (Mx [u]). cbn in Mx.
    assert (clique g [u]) as Q; [|specialize (Mx Q); lia]. split; [constructor; [intros []|constructor]|]. split.
    - intros x [<-|[]]. rewrite Eg. left. reflexivity.
    - intros x y [<-|[]] [<-|[]] H. congruence. }
  assert (Bd : forall B f, fine g B f -> Z.of_nat (length C) < B) by (intros B f F; apply (clique_bound g B C f); assumption).
  assert (F0 : fine g (k0 + 1) (cf (map (fun vc => (fst vc, snd vc + 1)) cm))).
  { destruct C0 as (_ & R & X). split; [intros v Hv'; specialize (R v Hv'); lia|exact X]. }
  assert (K1 := Bd _ _ F0). assert (K2 := map_few g cm k0 Hg ltac:(lia) PM).
  assert (LC : (length C <= length (vertices g))%nat) by (apply NoDup_incl_length; [exact DC|intros u Hu; apply Hv, VC, Hu]).
  assert (LC1 : (1 <= length C)%nat) by (destruct C; [congruence|cbn; lia]).
  destruct (Z.eqb_spec size (Z.of_nat (length (vertices g)))) as [Ec|Ec].
  - destruct (result_ok g _ k0 classes None cm Hg K0 eq_refl C0) as (c & Ek & Ch & G).
    { intros B f HB F. specialize (Bd B f F). lia. }
    exists k0, c. split; [exact Ek|]. split; [exact Ch|exact G].
  - subst size. set (st0 := KS _ _ _ _ _ _ _ _ _).
    assert (I0 : kinv g (length C) cm st0).
    { split; [exact C0|]. split; [exact K2|]. left. exists C. unfold fresh, st0. cbn [k_idx k_next k_s k_sc k_color k_order k_unc k_best k_found].
      assert (Cin : forall u, In u C -> exists i, (i < length C)%nat /\ u = nth i C 0) by (intros u Hu; apply (In_nth _ _ 0) in Hu as (i & Hi' & <-); exists i; split; [exact Hi'|reflexivity]).
      split; [reflexivity|]. split; [reflexivity|]. split; [lia|]. split.
      { constructor; [exact T|exact DC|exact VC| | |].
        - intros u Hu. destruct (Cin u Hu) as (i & Li & ->). rewrite (Ci i Li). lia.
        - intros u v Hu Hv' Euv. destruct (Cin u Hu) as (i & Li & Eu). destruct (Cin v Hv') as (j & Lj & Ev). rewrite Eu, Ev, (Ci i Li), (Ci j Lj).
          intros Eq. assert (i = j) by lia. subst j. assert (u = v) as <- by congruence. destruct Euv as (w & Euv). rewrite Hl in Euv. discriminate.
        - rewrite (Ci 0%nat) by lia. reflexivity. }
      split; [exact Z0|]. split; [exact O|]. split; [exact D|]. split; [exact U|].
      intros B f HB F. left. destruct (label_clique g B C DC VC EC f F) as (f' & F' & L). exists f'. split; [exact F'|].
      intros u Hu. destruct (Cin u Hu) as (i & Li & ->). rewrite (L i Li), (Ci i Li). reflexivity. }
    set (n := Z.of_nat (length (vertices g))) in *.
    destruct (loop_ok g Hg Hl Hi ord Ho (length C) LC1 cm (bits ((n + 2) ^ n)) st0 I0) as (st' & Er & Cb & Bn & M).
    + eapply Z.le_lt_trans; [|apply bits_spec]. destruct I0 as (_ & _ & [(P & F)|[(P & s & N & _)|(Q & _)]]).
      * rewrite (meas_fresh g Hg Hl Hi ord Ho (length C) LC1 cm st0 P F). assert (FB := fval_bound g Hg Hl Hi ord Ho (length C) LC1 cm st0 P F). fold n in FB |- *. lia.
      * discriminate N.
      * unfold st0 in Q. cbn [k_idx] in Q. lia.
    + rewrite Er. cbn [bind]. destruct (result_ok g (the_best cm (k_found st')) (k_best st') classes (k_found st') cm Hg) as (c & Ek & Ch & G).
      * destruct g as [|(u, a) g'] eqn:Eg; [congruence|]. rewrite <- Eg in *. destruct Cb as (_ & R & _). assert (Q : 1 <= cf (the_best cm (k_found st')) u <= k_best st'); [|lia]. apply R. rewrite Eg. left. reflexivity.
      * reflexivity.
      * exact Cb.
      * exact M.
      * exists (k_best st'), c. split; [exact Ek|]. split; [exact Ch|exact G].
Qed.
