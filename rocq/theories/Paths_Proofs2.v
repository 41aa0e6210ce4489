(** * The variants of Dijkstra's algorithm *)
From Coq Require Import ZArith List Lia Bool Permutation Sorting.Sorted.
From Verif Require Import Base Py Dict Lists2 Gen Pairing_Model Pairing_Proofs3 Graph_Model Graph_Spec Graph_Proofs
  Trav_Model Trav_Proofs Trav_Proofs2 Paths_Model Paths_Spec Paths_Proofs.
Import ListNotations.
Open Scope Z_scope.

(** ** The queue *)

Section Pop.
  Context {A : Type} (ltb : A -> A -> bool) (key : A -> Z).
  Hypothesis H1 : forall x y, ltb x y = true -> key x <= key y.
  Hypothesis H2 : forall x y, ltb x y = false -> key y <= key x.

  Lemma pop_min_ok : forall l x m r, pop_min ltb x l = (m, r) ->
    Permutation (x :: l) (m :: r) /\ forall y, In y (x :: l) -> key m <= key y.
  Proof.
    induction l as [|y l IH]; intros x m r E; cbn [pop_min] in E.
    - injection E as <- <-. split; [reflexivity|]. intros y [<-|[]]. lia.
    - destruct (ltb y x) eqn:El.
      + destruct (pop_min ltb y l) as [m' r'] eqn:E'. injection E as <- <-. destruct (IH y m' r' E') as [P M].
        split; [rewrite P; apply perm_swap|]. intros z [<-|Hz]; [|apply M; exact Hz].
        apply H1 in El. specialize (M y (or_introl eq_refl)). lia.
      + destruct (pop_min ltb x l) as [m' r'] eqn:E'. injection E as <- <-. destruct (IH x m' r' E') as [P M].
        split.
        * rewrite perm_swap. rewrite P. apply perm_swap.
        * intros z [<-|[<-|Hz]]; [apply M; left; reflexivity| |apply M; right; exact Hz].
          apply H2 in El. specialize (M x (or_introl eq_refl)). lia.
  Qed.
End Pop.

Lemma pair_ltb_1 x y : pair_ltb x y = true -> fst x <= fst y.
Proof. unfold pair_ltb. rewrite orb_true_iff, andb_true_iff, Z.ltb_lt, Z.eqb_eq. lia. Qed.
Lemma pair_ltb_2 x y : pair_ltb x y = false -> fst y <= fst x.
Proof. unfold pair_ltb. rewrite orb_false_iff, Z.ltb_ge. lia. Qed.
Lemma triple_ltb_1 x y : triple_ltb x y = true -> fst (fst x) <= fst (fst y).
Proof. destruct x as [[w u] p], y as [[w' u'] p']. cbn. rewrite orb_true_iff, andb_true_iff, Z.ltb_lt, Z.eqb_eq. lia. Qed.
Lemma triple_ltb_2 x y : triple_ltb x y = false -> fst (fst y) <= fst (fst x).
Proof. destruct x as [[w u] p], y as [[w' u'] p']. cbn. rewrite orb_false_iff, Z.ltb_ge. lia. Qed.

Lemma arcs_udeg g : arcs g = udeg g [].
Proof. symmetry. apply udeg_nil. Qed.

Section Variants.
  Context (g : graph) (s : Z).
  Hypothesis Hg : undirected g.
  Hypothesis Hs : vertex g s.
  Hypothesis Hn : nonneg g.

  Definition keysok (dist : dists) := forall v, vertex g v -> In v (dkeys dist).

  Lemma keysok_init x : keysok (dset (all_keys g None) s x).
  Proof.
    intros v Hv. apply dkeys_dset_In. left. unfold all_keys, dkeys. rewrite map_map. cbn. rewrite map_id. exact Hv.
  Qed.

  Lemma getD_all (v : Z) : getD (all_keys g None) v = None.
  Proof.
    unfold getD, all_keys. generalize (dkeys g). intros l. induction l as [|u l IH]; cbn; [reflexivity|].
    destruct (u =? v); [reflexivity|exact IH].
  Qed.

  Lemma getD_init v : getD (dset (all_keys g None) s (Some 0)) v = if s =? v then Some 0 else None.
  Proof. unfold getD. rewrite dget_dset. destruct (s =? v); [reflexivity|]. apply getD_all. Qed.

  Lemma J_start prev : (forall v, getD prev v = None) -> J g s (getD (dset (all_keys g None) s (Some 0))) (getD prev) [].
  Proof.
    intros HP. apply J_init; [exact Hs| | |exact HP].
    - rewrite getD_init, Z.eqb_refl. reflexivity.
    - intros v Hv. rewrite getD_init. destruct (Z.eqb_spec s v); congruence.
  Qed.

  (** settling a vertex *)
  Lemma settle {Q} (push : Q -> Z -> Z -> outcome Q) dist prev S u w : keysok dist ->
    J g s (getD dist) (getD prev) S -> ~ In u (map fst S) -> getD dist u = Some w ->
    (forall y dy, getD dist y = Some dy -> ~ In y (map fst S) -> w <= dy) ->
    exists row I dist' prev', g_adj g u = Ret row /\ dget g u = Some row /\ NoDup (map fst row) /\
      (forall h, relax push u w row (dist, prev, h) = (do h <- foldM (fun h x => push h (fst x) (snd x)) I h; Ret (dist', prev', h))) /\
      I = improved (getD dist) w row /\
      dist' = fold_left (fun (d : dists) (x : Z * Z) => dset d (snd x) (Some (fst x))) I dist /\
      keysok dist' /\ J g s (getD dist') (getD prev') (S ++ [(u, w)]) /\
      NoDup (map snd I) /\ (length I <= length row)%nat /\
      (forall d v, In (d, v) I -> w <= d /\ getD dist' v = Some d /\ ltx d (getD dist v) = true /\ ~ In v (map fst (S ++ [(u, w)]))) /\
      (forall v, ~ In v (map snd I) -> getD dist' v = getD dist v).
  Proof.
    intros HK HJ Hu Eu Hmin. destruct (j_w _ _ _ _ _ HJ u w Eu) as [_ Vu].
    destruct (adj_row g Hg u Vu) as (row & Er & Nr & Hr).
    set (I := improved (getD dist) w row).
    exists row, I, (fold_left (fun (d : dists) (x : Z * Z) => dset d (snd x) (Some (fst x))) I dist),
      (fold_left (fun (d : prevs) (x : Z * Z) => dset d (snd x) (Some u)) I prev).
    split; [unfold g_adj, dgetM; rewrite Er; reflexivity|]. split; [exact Er|]. split; [exact Nr|]. split.
    { intros h. apply relax_eq; [exact Nr|]. intros v Hv. apply HK. apply Hr in Hv.
      destruct Hg as (_ & _ & K & _). apply (K u). exact Hv. }
    split; [reflexivity|]. split; [reflexivity|]. split.
    { intros v Hv. apply (fold_dset_keys (fun x => Some (fst x))). left. apply HK. exact Hv. }
    assert (HJ' : J g s (getD (fold_left (fun (d : dists) (x : Z * Z) => dset d (snd x) (Some (fst x))) I dist))
             (getD (fold_left (fun (d : prevs) (x : Z * Z) => dset d (snd x) (Some u)) I prev)) (S ++ [(u, w)])).
    { apply J_step with (getD dist) (getD prev); auto. apply relax_scanned; assumption. }
    split; [exact HJ'|]. split; [apply improved_nd; exact Nr|]. split.
    { unfold I, improved. rewrite map_length. clear. induction row as [|x row IH]; cbn; [lia|].
      destruct (ltx _ _); cbn; lia. }
    pose proof (relax_scanned g u w row dist prev Er Nr) as Hsc. fold I in Hsc.
    assert (HI : forall d v, In (d, v) I -> w <= d /\
      getD (fold_left (fun (d : dists) (x : Z * Z) => dset d (snd x) (Some (fst x))) I dist) v = Some d /\ ltx d (getD dist v) = true).
    { intros d v Hv. apply (improved_In g (getD dist) w u row d v Er Nr) in Hv. destruct Hv as (c & Ec & -> & El).
      split; [pose proof (Hn _ _ _ Ec); lia|]. split; [|exact El].
      specialize (Hsc v). rewrite Ec, El in Hsc. apply Hsc. }
    split.
    - intros d v Hv. destruct (HI d v Hv) as (A & B & C). split; [exact A|]. split; [exact B|]. split; [exact C|].
      intros Hin. apply in_map_iff in Hin. destruct Hin as ([x dx] & Ex & Hx). cbn in Ex. subst x.
      assert (Dv : getD dist v = Some dx).
      { apply in_app_iff in Hx. destruct Hx as [Hx|[E|[]]].
        - apply (j_S _ _ _ _ _ HJ v dx Hx).
        - injection E as -> ->. exact Eu. }
      destruct (j_S _ _ _ _ _ HJ' v dx Hx) as [Dv' _]. rewrite B in Dv'. injection Dv' as ->.
      rewrite Dv in C. apply ltx_true in C. lia.
    - intros v Hv. unfold getD at 1. rewrite (fold_dset_get (fun x => Some (fst x))) by (apply improved_nd; exact Nr).
      destruct (find _ I) as [x|] eqn:F; [|reflexivity]. apply find_some in F. destruct F as [F1 F2]. apply Z.eqb_eq in F2.
      destruct Hv. rewrite <- F2. apply in_map. exact F1.
  Qed.

  (** the queue covers the unsettled vertices *)
  Definition covers (dist : dists) (S : list (Z * Z)) (inq : Z -> Z -> Prop) : Prop :=
    (forall y d, getD dist y = Some d -> ~ In y (map fst S) -> inq d y) /\
    (forall w y, inq w y -> exists d, getD dist y = Some d /\ d <= w).

  Lemma covers_pop dist S (inq : Z -> Z -> Prop) w u : covers dist S inq -> inq w u -> (forall d y, inq d y -> w <= d) ->
    ~ In u (map fst S) -> getD dist u = Some w /\ forall y dy, getD dist y = Some dy -> ~ In y (map fst S) -> w <= dy.
  Proof.
    intros [C1 C2] Hw Hmin Hu. destruct (C2 w u Hw) as (d & Ed & Hd). pose proof (Hmin _ _ (C1 u d Ed Hu)).
    assert (d = w) by lia. subst d. split; [exact Ed|]. intros y dy Ey Hy. apply (Hmin dy y). apply C1; assumption.
  Qed.

  Lemma covers_step dist dist' S (inq inq' : Z -> Z -> Prop) u w I : covers dist S inq -> getD dist u = Some w ->
    (forall d v, In (d, v) I -> getD dist' v = Some d /\ ltx d (getD dist v) = true) ->
    (forall v, ~ In v (map snd I) -> getD dist' v = getD dist v) ->
    (forall d y, inq d y -> y <> u -> inq' d y) -> (forall d y, In (d, y) I -> inq' d y) ->
    (forall d y, inq' d y -> inq d y \/ In (d, y) I) ->
    covers dist' (S ++ [(u, w)]) inq'.
  Proof.
    intros [C1 C2] Eu HI HnI Q1 Q2 Q3. split.
    - intros y d Ey Hy. rewrite map_app, in_app_iff in Hy. cbn [map fst In] in Hy.
      destruct (in_dec Z.eq_dec y (map snd I)) as [Hi|Hi].
      + apply in_map_iff in Hi. destruct Hi as ([d' y'] & E & Hi). cbn in E. subst y'. apply Q2.
        destruct (HI d' y Hi) as [E' _]. rewrite E' in Ey. injection Ey as <-. exact Hi.
      + rewrite HnI in Ey by exact Hi. apply Q1; [apply C1; [exact Ey|tauto]|]. intros ->. tauto.
    - intros d y Hq. assert (Hmono : forall d0, getD dist y = Some d0 -> exists d1, getD dist' y = Some d1 /\ d1 <= d0).
      { intros d0 E0. destruct (in_dec Z.eq_dec y (map snd I)) as [Hi|Hi].
        - apply in_map_iff in Hi. destruct Hi as ([d' y'] & E & Hi). cbn in E. subst y'.
          destruct (HI d' y Hi) as [E' El]. exists d'. split; [exact E'|]. rewrite E0 in El. apply ltx_true in El. lia.
        - exists d0. rewrite HnI by exact Hi. split; [exact E0|lia]. }
      apply Q3 in Hq. destruct Hq as [Hq|Hq].
      + destruct (C2 d y Hq) as (d0 & E0 & H0). destruct (Hmono d0 E0) as (d1 & E1 & H1). exists d1. split; [exact E1|lia].
      + exists d. split; [apply (HI d y Hq)|lia].
  Qed.

  Lemma settled_end dist S (inq : Z -> Z -> Prop) : covers dist S inq -> (forall d y, ~ inq d y) ->
    forall y dy, getD dist y = Some dy -> In y (map fst S).
  Proof.
    intros [C1 _] Hno y dy Ey. destruct (in_dec Z.eq_dec y (map fst S)) as [|H]; [assumption|].
    destruct (Hno dy y). apply C1; assumption.
  Qed.

  (** what a finished run returns *)
  Definition finished (dist : dists) (prev : prevs) : Prop :=
    keysok dist /\ exists S, J g s (getD dist) (getD prev) S /\ forall y dy, getD dist y = Some dy -> In y (map fst S).

  Lemma finished_ok dist prev : finished dist prev -> exact_distances g s dist /\ shortest_paths g s prev.
  Proof.
    intros (HK & S & HJ & Hall). split.
    - intros v Hv. apply HK in Hv. apply dget_key in Hv. destruct Hv as [d E]. exists d. split; [exact E|].
      pose proof (J_final g s Hn _ _ _ HJ Hall v) as F. unfold getD in F. rewrite E in F. exact F.
    - apply (J_paths g s Hn (getD dist) (getD prev) S); [exact HJ|exact Hall|].
      intros v p. unfold getD. destruct (dget prev v) as [[q|]|]; split; congruence.
  Qed.

  (** ** dijkstra *)

  Lemma foldM_push I : forall h : list (Z * Z), foldM (fun h x => Ret ((fst x, snd x) :: h)) I h = Ret (rev I ++ h).
  Proof.
    induction I as [|[d v] I IH]; intros h; [reflexivity|]. cbn [foldM bind fst snd rev]. rewrite IH, <- app_assoc. reflexivity.
  Qed.

  Lemma covers_ext dist S (p q : Z -> Z -> Prop) : (forall d y, p d y <-> q d y) -> covers dist S p -> covers dist S q.
  Proof.
    intros E [C1 C2]. split; intros; [apply E; apply C1; assumption|]. apply C2. apply E. assumption.
  Qed.

  Lemma dij_loop_ok : forall fuel dist prev h S, keysok dist -> J g s (getD dist) (getD prev) S ->
    covers dist S (fun d y => In (d, y) h) -> (length h + udeg g (map fst S) <= fuel)%nat ->
    exists dist' prev', dij_loop g fuel dist prev h (map fst S) = Ret (dist', prev') /\ finished dist' prev'.
  Proof.
    induction fuel as [|fuel IH]; intros dist prev h S HK HJ HC Hf; (destruct h as [|x h];
      [exists dist, prev; split; [reflexivity|]; split; [exact HK|]; exists S; split; [exact HJ|];
       apply (settled_end dist S _ HC); intros d y []|]).
    - cbn [length] in Hf. lia.
    - cbn [dij_loop]. destruct (pop_min pair_ltb x h) as [[w u] r] eqn:Ep.
      destruct (pop_min_ok pair_ltb fst pair_ltb_1 pair_ltb_2 h x _ _ Ep) as [Pm Hmin]. cbn [fst] in Hmin.
      assert (Hlen : length r = length h) by (apply Permutation_length in Pm; cbn in Pm; lia). cbn [length] in Hf.
      assert (HC' : covers dist S (fun d y => In (d, y) ((w, u) :: r))).
      { apply (covers_ext dist S (fun d y => In (d, y) (x :: h))); [|exact HC]. intros d y. split; apply Permutation_in; [exact Pm|symmetry; exact Pm]. }
      destruct (mem u (map fst S)) eqn:Eu.
      + apply IH; auto; [|lia]. apply mem_In in Eu. destruct HC' as [C1 C2]. split.
        * intros y d Ey Hy. destruct (C1 y d Ey Hy) as [E|Hin]; [|exact Hin]. injection E as <- <-. tauto.
        * intros d y Hin. apply C2. right. exact Hin.
      + apply mem_false in Eu.
        destruct (covers_pop dist S _ w u HC' (or_introl eq_refl)) as [Edu Hmin']; [|exact Eu|].
        { intros d y Hin. apply (Permutation_in _ (Permutation_sym Pm)) in Hin. apply (Hmin (d, y) Hin). }
        destruct (settle (fun h d v => Ret ((d, v) :: h)) dist prev S u w HK HJ Eu Edu Hmin')
          as (row & I & dist' & prev' & Eg & Er & Nr & Erx & _ & _ & HK' & HJ' & NI & LI & HI & HnI).
        rewrite Eg. cbn [bind]. rewrite Erx, foldM_push. cbn [bind].
        replace (map fst S ++ [u]) with (map fst (S ++ [(u, w)])) by (rewrite map_app; reflexivity).
        apply IH; auto.
        * apply covers_step with dist (fun d y => In (d, y) ((w, u) :: r)) I; auto.
          -- intros d v Hv. destruct (HI d v Hv) as (_ & A & B & _). auto.
          -- intros d y [E|Hin] Hy; [injection E as <- <-; tauto|]. apply in_or_app. right. exact Hin.
          -- intros d y Hin. apply in_or_app. left. apply -> in_rev. exact Hin.
          -- intros d y Hin. apply in_app_iff in Hin. destruct Hin as [Hin|Hin]; [apply in_rev in Hin; auto|left; right; exact Hin].
        * rewrite app_length, rev_length, map_app. cbn [map fst].
          pose proof (udeg_visit g (map fst S) u row (proj1 Hg) Er Eu). lia.
  Qed.

  Lemma covers_start (inq : Z -> Z -> Prop) : (forall d y, inq d y <-> d = 0 /\ y = s) ->
    covers (dset (all_keys g None) s (Some 0)) [] inq.
  Proof.
    intros Q. split.
    - intros y d Ey _. rewrite getD_init in Ey. apply Q. destruct (Z.eqb_spec s y); [|discriminate]. injection Ey as <-. auto.
    - intros w y Hq. apply Q in Hq. destruct Hq as [-> ->]. exists 0. rewrite getD_init, Z.eqb_refl. split; [reflexivity|lia].
  Qed.

  Lemma dmem_vertex : dmem g s = true.
  Proof. apply dmem_In. exact Hs. Qed.

  Lemma dijkstra_ok : exists dist prev, dijkstra g s = Ret (dist, prev) /\ finished dist prev.
  Proof.
    unfold dijkstra. rewrite dmem_vertex.
    apply (dij_loop_ok (Datatypes.S (arcs g)) _ (all_keys g None) [(0, s)] []).
    - apply keysok_init.
    - apply J_start. apply getD_all.
    - apply covers_start. intros d y. cbn. split; [intros [E|[]]; injection E as <- <-; auto|intros [-> ->]; auto].
    - cbn [length map]. rewrite arcs_udeg. lia.
  Qed.

  (** ** dijkstra_pairing_heap *)

  Lemma inv_lookup h q v : Pairing_Proofs3.inv h q -> dmem (plookup h) v = dmem q v.
  Proof.
    intros (C & E1 & E2 & _). apply eq_true_iff_eq. rewrite !dmem_In, E1, E2. unfold dkeys. rewrite !map_map. cbn. tauto.
  Qed.

  Lemma inv_keys h q : Pairing_Proofs3.inv h q -> NoDup (dkeys q).
  Proof. intros (C & _ & -> & N & _). unfold dkeys. rewrite map_map. exact N. Qed.

  Lemma ph_pushes : forall I h q, Pairing_Proofs3.inv h q -> NoDup (map snd I) ->
    (forall d v k, In (d, v) I -> dget q v = Some k -> d <= k) ->
    exists h', foldM (fun h x => ph_push h (fst x) (snd x)) I h = Ret h' /\
      Pairing_Proofs3.inv h' (fold_left (fun q x => dset q (snd x) (fst x)) I q).
  Proof.
    induction I as [|[d v] I IH]; intros h q Hi N Hle; [exists h; auto|].
    cbn [map snd] in N. inversion_clear N as [|? ? N1 N2]. cbn [foldM fold_left fst snd].
    assert (Hp : exists h', ph_push h d v = Ret h' /\ Pairing_Proofs3.inv h' (dset q v d)).
    { unfold ph_push. rewrite (inv_lookup h q v Hi). destruct (dmem q v) eqn:Em.
      - apply dmem_true in Em. destruct Em as [k Ek]. apply (decrease_ok h q v d k Hi Ek). apply (Hle d v k); [left; reflexivity|exact Ek].
      - apply Graph_Proofs.dmem_false in Em. apply (insert_ok h q d v Hi Em). }
    destruct Hp as (h' & E & Hi'). rewrite E. cbn [bind]. apply IH; [exact Hi'|exact N2|].
    intros d' v' k Hin Hk. rewrite dget_dset in Hk. destruct (Z.eqb_spec v v') as [->|].
    - destruct N1. apply in_map_iff. exists (d', v'). auto.
    - apply (Hle d' v' k); [right; exact Hin|exact Hk].
  Qed.

  Lemma dph_loop_ok : forall fuel dist prev h q S, keysok dist -> J g s (getD dist) (getD prev) S -> Pairing_Proofs3.inv h q ->
    (forall y d, dget q y = Some d <-> getD dist y = Some d /\ ~ In y (map fst S)) ->
    (length g <= fuel + length S)%nat ->
    exists dist' prev', dph_loop g fuel dist prev h = Ret (dist', prev') /\ finished dist' prev'.
  Proof.
    induction fuel as [|fuel IH]; intros dist prev h q S HK HJ Hi HQ Hf;
      cbn [dph_loop]; (destruct (delete_ok h q Hi) as [[Eq Ed]|(h' & w & u & Ed & Eu & Hmin & Hi')];
      [rewrite Ed; cbn [bind]; exists dist, prev; split; [reflexivity|]; split; [exact HK|]; exists S; split; [exact HJ|];
       intros y dy Ey; destruct (in_dec Z.eq_dec y (map fst S)) as [|Hy]; [assumption|];
       assert (K : dget q y = Some dy) by (apply HQ; auto); rewrite Eq in K; discriminate|]).
    - exfalso. apply HQ in Eu. destruct Eu as [Eu Hu].
      assert (L : (length (map fst (S ++ [(u, w)])) <= length (map fst g))%nat).
      { apply NoDup_incl_length.
        - rewrite map_app. apply NoDup_app_intro; [apply (j_nd _ _ _ _ _ HJ)|repeat constructor; intros []|].
          intros x Hx [<-|[]]. tauto.
        - intros v Hv. apply in_map_iff in Hv. destruct Hv as ([x d] & Ex & Hx). cbn in Ex. subst x.
          apply in_app_iff in Hx. destruct Hx as [Hx|[E|[]]].
          + destruct (j_S _ _ _ _ _ HJ v d Hx) as [E _]. apply (j_w _ _ _ _ _ HJ v d E).
          + injection E as <- <-. apply (j_w _ _ _ _ _ HJ u w Eu). }
      rewrite !map_length, app_length in L. cbn [length] in L. lia.
    - rewrite Ed. cbn [bind]. pose proof Eu as Eu2. apply HQ in Eu2. destruct Eu2 as [Edu Hu].
      destruct (settle ph_push dist prev S u w HK HJ Hu Edu)
        as (row & I & dist' & prev' & Eg & Er & Nr & Erx & EI & ED & HK' & HJ' & NI & LI & HI & HnI).
      { intros y dy Ey Hy. apply (Hmin y dy). apply HQ. auto. }
      rewrite Eg. cbn [bind]. rewrite Erx. pose proof (inv_keys h q Hi) as Nq.
      destruct (ph_pushes I h' (ddel q u) Hi' NI) as (h2 & Eh & Hi2).
      { intros d v k Hin Hk. rewrite dget_ddel in Hk by exact Nq. destruct (u =? v); [discriminate|]. apply HQ in Hk. destruct Hk as [Hk _].
        destruct (HI d v Hin) as (_ & _ & C & _). rewrite Hk in C. apply ltx_true in C. lia. }
      rewrite Eh. cbn [bind]. apply (IH dist' prev' h2 _ (S ++ [(u, w)]) HK' HJ' Hi2).
      + intros y d. rewrite (fold_dset_get fst) by exact NI. rewrite map_app, in_app_iff. cbn [map fst In].
        destruct (find (fun x => snd x =? y) I) as [[d' y']|] eqn:F.
        * apply find_some in F. destruct F as [F1 F2]. cbn [snd] in F2. apply Z.eqb_eq in F2. subst y'.
          destruct (HI d' y F1) as (_ & B & _ & C). rewrite B. cbn [fst].
          rewrite map_app, in_app_iff in C. cbn [map fst In] in C. split; [intros E; split; [exact E|exact C]|tauto].
        * rewrite HnI.
          2:{ intros Hin. apply in_map_iff in Hin. destruct Hin as (x & Ex & Hx). apply (find_none _ _ F) in Hx.
              rewrite Ex, Z.eqb_refl in Hx. discriminate. }
          rewrite dget_ddel by exact Nq. destruct (Z.eqb_spec u y) as [<-|Hne].
          -- split; [discriminate|]. tauto.
          -- rewrite HQ. tauto.
      + rewrite app_length. cbn [length]. lia.
  Qed.

  Lemma getD_single (v : Z) : getD [(s, None)] v = None.
  Proof. unfold getD. cbn. destruct (s =? v); reflexivity. Qed.

  Lemma dijkstra_pairing_heap_ok : exists dist prev, dijkstra_pairing_heap g s = Ret (dist, prev) /\ finished dist prev.
  Proof.
    unfold dijkstra_pairing_heap. rewrite dmem_vertex. destruct (insert_ok ph_empty [] 0 s Pairing_Proofs3.inv_empty eq_refl) as (h & E & Hi).
    rewrite E. cbn [bind]. apply (dph_loop_ok (length g) _ _ h _ [] (keysok_init _) (J_start _ getD_single) Hi).
    - intros y d. cbn. unfold getD at 1. rewrite dget_dset. fold (getD (all_keys g None) y).
      destruct (Z.eqb_spec s y) as [->|H].
      + tauto.
      + fold (getD (all_keys g None) y). change (match dget (all_keys g None) y with Some d0 => d0 | None => None end) with (getD (all_keys g None) y).
        rewrite getD_all. split; [discriminate|intros [K _]; discriminate].
    - lia.
  Qed.
End Variants.
