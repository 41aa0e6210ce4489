(** * Proofs about Steiner trees: the distance network *)
From Coq Require Import ZArith List Lia Bool Permutation Sorting.Sorted.
From Verif Require Import Base Py Dict Lists Lists2 Graph_Model Graph_Spec Graph_Proofs Graph_Proofs2 Graph_Props UF_Model UF_Spec UF_Proofs Trav_Model Trav_Spec Trav_Proofs Trav_Proofs2
  Paths_Model Paths_Spec MST_Model MST_Spec MST_Proofs MST_Proofs2 MST_Props Color_Model Kor_Model Kor_Proofs Stein_Model Stein_Spec Stein_Proofs Stein_Proofs2 Stein_Proofs3.
Import ListNotations.
Open Scope Z_scope.

Lemma combos_In u v l : In (u, v) (combos l) -> In u l /\ In v l.
Proof.
  induction l as [|x l IH]; [intros []|]. cbn [combos]. intros I. apply in_app_iff in I as [I|I].
  - apply in_map_iff in I as (y & E & I). injection E as <- <-. split; [left; reflexivity|right; exact I].
  - destruct (IH I). split; right; assumption.
Qed.
Lemma combos_all u v l : In u l -> In v l -> u <> v -> adjacent (combos l) u v.
Proof.
  unfold adjacent. induction l as [|x l IH]; [intros []|]. cbn [combos]. intros [<-|Iu] [<-|Iv] N.
  - congruence.
  - left. apply in_app_iff. left. apply in_map, Iv.
  - right. apply in_app_iff. left. apply in_map, Iu.
  - destruct (IH Iu Iv N) as [Q|Q]; [left|right]; apply in_app_iff; right; exact Q.
Qed.

(** The edges of a path. *)
Fixpoint pairs (l : list Z) : list (Z * Z) := match l with [] => [] | x :: l' => (match l' with [] => [] | y :: _ => [(x, y)] end) ++ pairs l' end.

Lemma pairs_In u v l : In (u, v) (pairs l) -> exists A B, l = A ++ u :: v :: B.
Proof.
  induction l as [|x l IH]; [intros []|]. destruct l as [|y l]; [intros []|]. intros I. change (pairs (x :: y :: l)) with ((x, y) :: pairs (y :: l)) in I. destruct I as [E|I].
  - injection E as -> ->. exists [], l. reflexivity.
  - destruct (IH I) as (A & B & ->). exists (x :: A), B. reflexivity.
Qed.
Lemma pairs_linked l : forall u v, In u l -> In v l -> linked (pairs l) u v.
Proof.
  assert (H : forall l x, forall v, In v (x :: l) -> linked (pairs (x :: l)) x v).
  { induction l0 as [|y l0 IH]; intros x v [<-|I]; try apply linked_refl; [destruct I|].
    change (pairs (x :: y :: l0)) with ((x, y) :: pairs (y :: l0)). eapply linked_trans; [apply linked_edge; left; reflexivity|].
    eapply linked_sub; [|apply IH, I]. intros e He. right. exact He. }
  destruct l as [|x l]; [intros u v []|]. intros u v Iu Iv. eapply linked_trans; [apply linked_sym, H, Iu|apply H, Iv].
Qed.
Lemma pairs_length x l : length (pairs (x :: l)) = length l.
Proof. revert x. induction l as [|y l IH]; intros x; [reflexivity|]. change (pairs (x :: y :: l)) with ((x, y) :: pairs (y :: l)). cbn [length]. rewrite IH. reflexivity. Qed.

Section Terminals.
  Context (g : graph) (R : list Z).
  Hypothesis Hg : undirected g.
  Hypothesis Hn : nonneg g.
  Hypothesis NR : NoDup R.
  Hypothesis LR : (2 <= length R)%nat.
  Hypothesis VR : forall r, In r R -> vertex g r.
  Hypothesis CR : forall r r', In r R -> In r' R -> reachable g r r'.

  Lemma two : exists r1 r2, In r1 R /\ In r2 R /\ r1 <> r2.
  Proof using All.
    destruct R as [|a [|b l]]; [cbn in LR; lia|cbn in LR; lia|]. exists a, b. split; [left; reflexivity|]. split; [right; left; reflexivity|].
    intros ->. inversion_clear NR as [|? ? N _]. apply N. left. reflexivity.
  Qed.

  (** ** The lower bound *)
  Lemma ratio T W : steiner_tree g R T W -> exists P, Permutation P R /\ Z.of_nat (length R) * psum (dd g) P <= 2 * (Z.of_nat (length R) - 1) * W.
  Proof using All.
    intros (V & NV & HR & (S1 & S2 & S3) & TW). destruct two as (r0 & _ & I0 & _).
    assert (V0 := VR r0 I0).
    assert (UV : forall v, In v V -> UU g r0 v).
    { intros v Iv. unfold UU. apply (linked_reachable g T); [exact Hg|intros x y I; apply S1, I|]. apply S2; [apply HR, I0|exact Iv]. }
    destruct (tour (dd g) (UU g r0) (dd_refl g Hg Hn r0 V0) (dd_sym g Hg Hn r0 V0) (dd_tri g Hg Hn r0 V0) g T W V r0 Hn TW (dd_edge g Hg Hn r0 V0) NV (HR r0 I0) UV)
      as (l & Nl & Il & Pl); [intros u v I; destruct (S1 u v I) as (A & B & _); auto|exact S2|].
    assert (Ul : forall y, In y l -> UU g r0 y) by (intros y Iy; apply UV, Il; right; exact Iy).
    assert (U0 : UU g r0 r0) by (apply UV, HR, I0).
    set (keep := fun x => if in_dec Z.eq_dec x R then true else false).
    assert (Fl := psum_filter (dd g) (UU g r0) (dd_refl g Hg Hn r0 V0) (dd_sym g Hg Hn r0 V0) (dd_tri g Hg Hn r0 V0) keep l r0 r0 U0 U0 Ul).
    destruct (tour_path (dd g) (UU g r0) (dd_refl g Hg Hn r0 V0) (dd_sym g Hg Hn r0 V0) (dd_tri g Hg Hn r0 V0) r0 (filter keep l) W U0) as (P & PP & Ps).
    { intros x Ix. apply filter_In in Ix. apply Ul, Ix. }
    { lia. }
    assert (PR : Permutation P R).
    { rewrite PP. inversion_clear Nl as [|? ? N0 Nl']. apply NoDup_Permutation.
      - constructor; [intros I; apply filter_In in I; tauto|apply NoDup_filter, Nl'].
      - exact NR.
      - intros x. cbn [In]. rewrite filter_In. unfold keep. split.
        + intros [<-|(_ & K)]; [exact I0|]. destruct (in_dec Z.eq_dec x R); [assumption|discriminate].
        + intros Ix. destruct (Z.eq_dec r0 x) as [->|N]; [left; reflexivity|right]. split; [|destruct (in_dec Z.eq_dec x R); [reflexivity|contradiction]].
          destruct (proj2 (Il x) (HR x Ix)) as [E|I]; [congruence|exact I]. }
    exists P. split; [exact PR|]. rewrite <- (Permutation_length PR). exact Ps.
  Qed.

  (** ** The dictionaries *)
  Definition known (sp : list (Z * (dists * prevs))) : Prop := forall u v, In u R -> reachable g u v ->
    exists dist prev es a, dget sp u = Some (dist, prev) /\ dget dist v = Some (Some (dd g u v)) /\ dget prev u = Some None /\
      chain prev u v es /\ total_weight g es (dd g u v) /\ (length es <= length g)%nat /\ dget prev v = Some a.

  Lemma shortest_from_ok : exists sp, shortest_from g R = Ret sp /\ known sp.
  Proof using All.
    assert (G : forall l sp0, (forall u, In u l -> vertex g u) -> exists sp, foldM (fun sp u => do r <- dijkstra g u; Ret (dset sp u r)) l sp0 = Ret sp /\
      forall u, (In u l -> exists r, dijkstra g u = Ret r /\ dget sp u = Some r) /\ (~ In u l -> dget sp u = dget sp0 u)).
    { clear - Hg Hn. induction l as [|x l IH]; intros sp0 Hl; [exists sp0; split; [reflexivity|]; intros u; split; [intros []|reflexivity]|].
      destruct (dij_ok g Hg Hn x (Hl x (or_introl eq_refl))) as (dist & prev & E & _). cbn [foldM]. rewrite E. cbn [bind].
      destruct (IH (dset sp0 x (dist, prev))) as (sp & Es & Hs); [intros u Iu; apply Hl; right; exact Iu|]. exists sp. split; [exact Es|].
      intros u. destruct (Hs u) as (H1 & H2). split.
      - intros Iu. destruct (in_dec Z.eq_dec u l) as [J|J]; [apply H1, J|]. destruct Iu as [<-|Iu]; [|contradiction]. exists (dist, prev). split; [exact E|].
        rewrite H2 by exact J. apply dget_dset_same.
      - intros Nu. rewrite H2 by (intros J; apply Nu; right; exact J). apply dget_dset_other. intros ->. apply Nu. left. reflexivity. }
    destruct (G R [] VR) as (sp & E & H). exists sp. split; [exact E|]. intros u v Iu Ru.
    destruct (dij_ok g Hg Hn u (VR u Iu)) as (dist & prev & Ed & Rt & Hd). destruct (Hd v Ru) as (E1 & _ & es & a & C & TW & L & Ea).
    exists dist, prev, es, a. destruct (proj1 (H u) Iu) as (r & Er & Eg). rewrite Ed in Er. injection Er as <-. auto 10.
  Qed.

  (** ** Paths in the network *)
  Lemma path_tree N P : (forall x y, In x R -> In y R -> x <> y -> weight N x y = Some (dd g x y)) -> Permutation P R ->
    spanning_tree N R (pairs P) /\ total_weight N (pairs P) (psum (dd g) P).
  Proof using All.
    intros HW PP. assert (NP : NoDup P) by (apply (Permutation_NoDup (Permutation_sym PP)), NR).
    assert (IP : forall x, In x P <-> In x R) by (intros x; split; apply Permutation_in; [exact PP|symmetry; exact PP]).
    assert (E : forall u v, In (u, v) (pairs P) -> In u R /\ In v R /\ u <> v).
    { intros u v I. apply pairs_In in I as (A & B & ->). split; [apply IP, in_app_iff; right; left; reflexivity|].
      split; [apply IP, in_app_iff; right; right; left; reflexivity|]. intros ->. apply NoDup_remove_2 in NP. apply NP, in_app_iff. right. left. reflexivity. }
    split.
    - split; [|split].
      + intros u v I. destruct (E u v I) as (Iu & Iv & D). split; [exact Iu|]. split; [exact Iv|]. eexists. apply HW; assumption.
      + intros u v Iu Iv. apply pairs_linked; apply IP; assumption.
      + rewrite <- (Permutation_length PP). destruct P as [|x P]; [apply Permutation_length in PP; cbn in PP; lia|]. rewrite pairs_length. reflexivity.
    - clear - HW E. induction P as [|x P IH]; [constructor|]. destruct P as [|y P]; [constructor|].
      change (pairs (x :: y :: P)) with ((x, y) :: pairs (y :: P)) in *. change (psum (dd g) (x :: y :: P)) with (dd g x y + psum (dd g) (y :: P)).
      destruct (E x y (or_introl eq_refl)) as (Ix & Iy & D). constructor; [apply HW; assumption|]. apply IH. intros u v I. apply E. right. exact I.
  Qed.

  (** ** The union of the paths *)
  Notation Fg := (Graph_Proofs2.F g).
  Lemma add_chain h es W : total_weight g es W ->
    foldM (fun h e => do w <- g_weight g (fst e) (snd e); Ret (add_edge h (fst e) (snd e) w)) es h = Ret (add_edges h (map (fun e => (fst e, snd e, Fg (fst e) (snd e))) es)).
  Proof using Type.
    intros H. revert h. induction H as [|u v w T W Hw _ IH]; intros h; [reflexivity|].
    cbn [foldM fst snd map]. unfold g_weight at 1. assert (EF : Fg u v = w) by (unfold Graph_Proofs2.F; rewrite Hw; reflexivity).
    unfold weight in Hw. destruct (dget g u) as [a|] eqn:Ea; [|discriminate].
    replace (g_adj g u) with (Ret a) by (unfold g_adj, dgetM; rewrite Ea; reflexivity). cbn [bind].
    replace (dgetM a v) with (Ret w) by (unfold dgetM; rewrite Hw; reflexivity). cbn [bind]. rewrite IH, EF. reflexivity.
  Qed.

  Lemma paths_ok sp : known sp -> forall T W h, (forall u v, In (u, v) T -> In u R /\ In v R /\ u <> v) ->
    (W = fold_right (fun e t => dd g (fst e) (snd e) + t) 0 T) ->
    exists L, foldM (add_path g sp) T h = Ret (add_edges h (map (fun e => (fst e, snd e, Fg (fst e) (snd e))) L)) /\ total_weight g L W /\
      (forall u v, In (u, v) T -> linked L u v /\ ends L u /\ ends L v) /\ (forall x y, In (x, y) L -> exists r, In r R /\ linked L r x /\ linked L r y).
  Proof using All.
    intros K. induction T as [|(u, v) T IH]; intros W h HT EW.
    - exists []. split; [reflexivity|]. split; [rewrite EW; constructor|]. split; [intros u v []|intros x y []].
    - destruct (HT u v (or_introl eq_refl)) as (Iu & Iv & D). destruct (K u v Iu (CR u v Iu Iv)) as (dist & prev & es & a & E1 & _ & Rt & C & TW & L & Ea).
      cbn [foldM]. unfold add_path at 1. replace (dgetM sp u) with (Ret (dist, prev)) by (unfold dgetM; rewrite E1; reflexivity). cbn [bind snd].
      replace (dgetM prev v) with (Ret a) by (unfold dgetM; rewrite Ea; reflexivity). cbn [bind].
      rewrite (walk_back_eq prev u Rt _ v es C (length g) a h Ea L). rewrite (add_chain h es _ TW). cbn [bind].
      destruct (IH (fold_right (fun e t => dd g (fst e) (snd e) + t) 0 T) (add_edges h (map (fun e => (fst e, snd e, Fg (fst e) (snd e))) es))) as (L2 & E2 & TW2 & H1 & H2);
        [intros x y I; apply HT; right; exact I|reflexivity|].
      assert (S1 : forall x y, linked es x y -> linked (es ++ L2) x y) by (intros x y; apply linked_sub; intros e He; apply in_app_iff; left; exact He).
      assert (S2 : forall x y, linked L2 x y -> linked (es ++ L2) x y) by (intros x y; apply linked_sub; intros e He; apply in_app_iff; right; exact He).
      assert (En : forall M M' x, (forall e, In e M -> In e M') -> ends M x -> ends M' x) by (intros M M' x Q (y & [I|I]); exists y; [left|right]; apply Q, I).
      exists (es ++ L2). split; [rewrite E2, map_app, add_edges_app; reflexivity|]. split.
      { apply tw_app. eexists _, _. split; [exact TW|]. split; [exact TW2|]. rewrite EW. reflexivity. }
      split.
      + intros x y [E|I].
        * injection E as <- <-. split; [apply S1, (chain_linked prev), C|]. destruct (chain_source prev u v es C) as (Is & (p & Ip)); [congruence|]. split.
          -- apply in_map_iff in Is as ((x & y) & E & I). cbn in E. subst x. exists y. left. apply in_app_iff. left. exact I.
          -- exists p. right. apply in_app_iff. left. exact Ip.
        * destruct (H1 x y I) as (A & B & B'). split; [apply S2, A|]. split; (eapply En; [|eassumption]; intros e He; apply in_app_iff; right; exact He).
      + intros x y I. apply in_app_iff in I as [I|I].
        * exists u. split; [exact Iu|]. destruct (chain_ends prev u v es x y C I). split; apply S1; assumption.
        * destruct (H2 x y I) as (r & Ir & A & B). exists r. split; [exact Ir|]. split; apply S2; assumption.
  Qed.

  (** ** From the spanning tree of the network to the result *)
  Theorem heuristic_tail N sp WM TM ord : (forall l, Permutation (ord l) l) -> known sp ->
    (forall x y, In x R -> In y R -> x <> y -> weight N x y = Some (dd g x y)) -> listed_in_order TM -> minimum_spanning_tree N R TM WM ->
    exists h TS WS W T, foldM (add_path g sp) TM empty_graph = Ret h /\ prim h None = Ret (WS, TS) /\ total_weight g TS WS /\
      (forall x, ends TS x -> exists r, In r R /\ reachable g r x) /\ improve ord g TS R = Ret (W, T) /\
      steiner_tree g R T W /\ listed_in_order T /\ (forall v, leaf T v -> In v R) /\
      forall T' W', steiner_tree g R T' W' -> Z.of_nat (length R) * W <= 2 * (Z.of_nat (length R) - 1) * W'.
  Proof using All.
    intros Hord K WN (Lo & _) (SM & TWM & Min). destruct SM as (SM1 & SM2 & SM3).
    destruct two as (r1 & r2 & I1 & I2 & D12).
    assert (NeR : R <> []) by (intros Q; rewrite Q in I1; destruct I1).
    assert (TMR : forall u v, In (u, v) TM -> In u R /\ In v R /\ u <> v).
    { intros u v I. destruct (SM1 u v I) as (A & B & _). split; [exact A|]. split; [exact B|]. apply Lo in I. lia. }
    assert (EWM : WM = fold_right (fun e t => dd g (fst e) (snd e) + t) 0 TM).
    { clear - TWM WN TMR. induction TWM as [|u v w T W Hw _ IH]; [reflexivity|]. cbn [fold_right fst snd]. rewrite <- IH by (intros x y I; apply TMR; right; exact I).
      destruct (TMR u v (or_introl eq_refl)) as (Iu & Iv & D). rewrite (WN u v Iu Iv D) in Hw. congruence. }
    destruct (paths_ok sp K TM WM empty_graph TMR EWM) as (L & Esub & TWL & HL1 & HL2).
    destruct (add_edges_sub Fg L) as (Uh & Vh & Wh); [intros x y; unfold Graph_Proofs2.F; rewrite (proj2 (proj2 (proj2 Hg)) x y); reflexivity|].
    set (h := add_edges empty_graph _) in *. clearbody h.
    assert (RL : forall r r', In r R -> In r' R -> linked L r r').
    { intros r r' Ir Ir'. apply (linked_incl TM); [intros x y I; apply HL1, I|apply SM2; assumption]. }
    assert (AL : forall x y, ends L x -> ends L y -> linked L x y).
    { assert (Q : forall x, ends L x -> exists r, In r R /\ linked L r x).
      { intros x (y & [I|I]); apply HL2 in I as (r & Ir & A & B); exists r; auto. }
      intros x y Ex Ey. destruct (Q x Ex) as (r & Ir & A), (Q y Ey) as (r' & Ir' & A').
      eapply linked_trans; [apply linked_sym, A|]. eapply linked_trans; [apply RL; eassumption|exact A']. }
    assert (RE : forall r, In r R -> ends L r).
    { intros r Ir. assert (exists r', In r' R /\ r <> r') as (r' & Ir' & Dr) by (destruct (Z.eq_dec r1 r) as [->|]; [exists r2|exists r1]; auto).
      destruct (linked_end TM r r' (SM2 r r' Ir Ir') Dr) as (y & [I|I]); apply HL1 in I; tauto. }
    set (V := fold_left (fun s uv => set_add (set_add s (fst uv)) (snd uv)) L []).
    assert (IV : forall x, In x V <-> ends L x) by (intros x; unfold V; rewrite ends_fold; cbn [In]; tauto).
    assert (NV : NoDup V) by (apply ends_fold_NoDup; constructor). clearbody V.
    assert (NeV : V <> []) by (intros Q; assert (X := proj2 (IV r1) (RE r1 I1)); rewrite Q in X; destruct X).
    assert (EL : forall x y, In (x, y) L -> edge g x y) by (intros x y I; exact (tw_edge g L WM x y TWL I)).
    assert (Wgh : forall x y, adjacent L x y -> weight h x y = weight g x y).
    { intros x y A. rewrite (proj1 (Wh x y) A). assert (Q : edge g x y).
      { destruct A as [I|I]; [apply EL, I|]. destruct (EL y x I) as (w & Ew). exists w. rewrite (proj2 (proj2 (proj2 Hg))). exact Ew. }
      destruct Q as (w & Ew). unfold Graph_Proofs2.F. rewrite Ew. reflexivity. }
    assert (Adj : forall x y, edge h x y -> adjacent L x y).
    { intros x y (w & Ew). destruct (in_dec (fun a b : Z * Z => ltac:(decide equality; apply Z.eq_dec) : {a = b} + {a <> b}) (x, y) L) as [I|I]; [left; exact I|].
      destruct (in_dec (fun a b : Z * Z => ltac:(decide equality; apply Z.eq_dec) : {a = b} + {a <> b}) (y, x) L) as [J|J]; [right; exact J|].
      rewrite (proj2 (Wh x y)) in Ew; [discriminate|]. intros [A|A]; contradiction. }
    destruct (prim_all h V L Uh NeV NV) as (WS & TS & EpS & LoS & (SS1 & SS2 & SS3) & TWS & MinS).
    { intros x. rewrite Vh, IV. reflexivity. }
    { intros x y I. destruct (EL x y I) as (w & Ew). exists w. rewrite (Wgh x y (or_introl I)). exact Ew. }
    { intros u v Iu Iv. apply AL; apply IV; assumption. }
    assert (Hwt : forall T W, (forall x y, In (x, y) T -> adjacent L x y) -> total_weight h T W <-> total_weight g T W).
    { intros T. induction T as [|(u, v) T IH]; intros W HT; [split; intros Q; inversion Q; constructor|].
      assert (Q0 := Wgh u v (HT u v (or_introl eq_refl))).
      split; intros Q; inversion Q; subst; (constructor; [congruence|apply IH; [intros a b I; apply HT; right; exact I|assumption]]). }
    assert (Hnh : nonneg h).
    { intros u v c Ec. assert (A : adjacent L u v) by (apply Adj; exists c; exact Ec). rewrite (Wgh u v A) in Ec. apply (Hn _ _ _ Ec). }
    destruct (spanning_within h V L WM Hnh NV NeV) as (T2 & W2 & St2 & TW2 & L2).
    { intros u v I. rewrite !IV. split; [exists v; left; exact I|exists u; right; exact I]. }
    { intros u v Iu Iv. apply AL; apply IV; assumption. }
    { apply Hwt; [intros x y I; left; exact I|exact TWL]. }
    assert (LS := MinS T2 W2 St2 TW2).
    assert (TSA : forall x y, In (x, y) TS -> adjacent L x y) by (intros x y I; apply Adj; apply SS1, I).
    assert (ETS : forall x, ends TS x <-> In x V).
    { intros x. split; [intros (y & [I|I]); apply SS1 in I; tauto|]. intros Ix.
      assert (exists y, In y V /\ x <> y) as (y & Iy & D) by (destruct (Z.eq_dec r1 x) as [->|]; [exists r2|exists r1]; (split; [apply IV, RE; assumption|auto])).
      apply (linked_end TS x y); [apply SS2; assumption|exact D]. }
    destruct (improve_ok ord g R TS WS Hord Hg Hn) as (W & T & E & St & LoT & Lf & LW).
    { exists r1, r2. auto. }
    { apply Hwt; assumption. }
    { intros r Ir. apply ETS, IV, RE, Ir. }
    { intros u v Eu Ev. apply SS2; apply ETS; assumption. }
    exists h, TS, WS, W, T. split; [exact Esub|]. split; [exact EpS|]. split; [apply Hwt; assumption|]. split.
    { intros x Ex. apply ETS, IV in Ex as (y & [I|I]); apply HL2 in I as (r & Ir & A & B); exists r; (split; [exact Ir|]); apply (linked_reachable g L); auto. }
    split; [exact E|]. split; [exact St|]. split; [exact LoT|]. split; [exact Lf|].
    intros T' W' St'. destruct (ratio T' W' St') as (P & PP & Ps). destruct (path_tree N P WN PP) as (StP & TWP).
    assert (LM := Min _ _ StP TWP). assert (LL : W <= psum (dd g) P) by lia. assert (t0 := LR). remember (psum (dd g) P) as X. clear - Ps LL t0. nia.
  Qed.
End Terminals.
