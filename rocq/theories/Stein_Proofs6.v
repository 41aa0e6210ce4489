(** * Proofs about Steiner trees: the minimum cost paths heuristic *)
From Coq Require Import ZArith List Lia Bool Permutation Sorting.Sorted.
From Verif Require Import Base Py Dict Lists Lists2 Graph_Model Graph_Spec Graph_Proofs Graph_Proofs2 Graph_Props UF_Model UF_Spec UF_Proofs Trav_Model Trav_Spec Trav_Proofs Trav_Proofs2
  Paths_Model Paths_Spec Paths_Proofs Paths_Proofs7 MST_Model MST_Spec MST_Proofs MST_Proofs2 MST_Props Color_Model Kor_Model Kor_Proofs Stein_Model Stein_Spec Stein_Proofs Stein_Proofs2 Stein_Proofs3 Stein_Proofs4 Stein_Proofs5.
Import ListNotations.
Open Scope Z_scope.

Lemma without_In l u x : In x (without l u) <-> In x l /\ x <> u.
Proof. unfold without. rewrite filter_In. destruct (Z.eqb_spec x u); cbn [negb]; intuition congruence. Qed.
Lemma without_length l u : In u l -> (length (without l u) < length l)%nat.
Proof.
  intros I. unfold without. rewrite (Permutation_length (filter_split (fun v => negb (v =? u)) l)), app_length.
  assert (Q : In u (filter (fun x => negb (negb (x =? u))) l)) by (apply filter_In; rewrite Z.eqb_refl; auto). destruct (filter (fun x => negb (negb (x =? u))) l); [destruct Q|cbn; lia].
Qed.

Lemma adds_In : forall es vs x, In x (fold_left set_add (map fst es) vs) <-> In x vs \/ In x (map (@fst Z Z) es).
Proof. induction es as [|(a, b) es IH]; intros vs x; cbn [map fold_left fst In]; [tauto|]. rewrite IH, set_add_In. intuition. Qed.
Lemma adds_NoDup : forall (es : list (Z * Z)) vs, NoDup vs -> NoDup (fold_left set_add (map fst es) vs).
Proof. induction es as [|(a, b) es IH]; intros vs N; [exact N|]. apply IH, set_add_NoDup, N. Qed.

Lemma along_eq : forall ch es vs,
  foldM (fun acc e => (fun '(es, vs) a b => Ret (es ++ [if a <? b then (a, b) else (b, a)], set_add vs a)) acc (fst e) (snd e)) ch (es, vs)
  = Ret (es ++ norm ch, fold_left set_add (map fst ch) vs).
Proof.
  induction ch as [|(a, b) ch IH]; intros es vs; [cbn; rewrite app_nil_r; reflexivity|]. cbn [foldM fst snd bind]. rewrite IH. cbn [norm map fold_left fst snd]. rewrite <- app_assoc. cbn [app].
  do 3 f_equal. unfold ordered. destruct (Z.ltb_spec a b); [rewrite Z.min_l, Z.max_r by lia; reflexivity|rewrite Z.min_r, Z.max_l by lia; reflexivity].
Qed.

Lemma norm_adj T x y : adjacent (norm T) x y <-> adjacent T x y.
Proof.
  assert (H : forall x y, In (x, y) (norm T) -> adjacent T x y).
  { intros p q I. apply in_map_iff in I as ((a, b) & E & I). cbn [fst snd] in E. unfold ordered in E. injection E as <- <-.
    destruct (Z.le_gt_cases a b); [rewrite Z.min_l, Z.max_r by lia; left; exact I|rewrite Z.min_r, Z.max_l by lia; right; exact I]. }
  assert (H' : forall x y, In (x, y) T -> adjacent (norm T) x y).
  { intros p q I. assert (Q := in_map (fun e => ordered (fst e) (snd e)) _ _ I). fold (norm T) in Q. cbn [fst snd] in Q. unfold ordered in Q.
    destruct (Z.le_gt_cases p q); [rewrite Z.min_l, Z.max_r in Q by lia; left; exact Q|rewrite Z.min_r, Z.max_l in Q by lia; right; exact Q]. }
  unfold adjacent in *. split; intros [I|I]; [apply H, I|apply H in I; tauto|apply H', I|apply H' in I; tauto].
Qed.
Lemma norm_ends T x : ends (norm T) x <-> ends T x.
Proof. split; intros (y & A); exists y; apply norm_adj, A. Qed.
Lemma ends_app A B x : ends (A ++ B) x <-> ends A x \/ ends B x.
Proof. unfold ends, adjacent. split; [intros (y & I); rewrite !in_app_iff in I; destruct I as [[I|I]|[I|I]]; eauto|intros [(y & I)|(y & I)]; exists y; rewrite !in_app_iff; tauto]. Qed.

Section Grow.
  Context (g : graph) (R : list Z) (ord : list Z -> list Z).
  Hypothesis Hg : undirected g.
  Hypothesis Hp : forall u v c, weight g u v = Some c -> 0 < c.
  Hypothesis NR : NoDup R.
  Hypothesis LR : (2 <= length R)%nat.
  Hypothesis VR : forall r, In r R -> vertex g r.
  Hypothesis CR : forall r r', In r R -> In r' R -> reachable g r r'.
  Hypothesis Hord : forall l, Permutation (ord l) l.

  Lemma Hn : nonneg g.
  Proof using Hp. intros u v c E. specialize (Hp _ _ _ E). clear - Hp. lia. Qed.

  Context (sp : list (Z * (dists * prevs))).
  Hypothesis K : known g R sp.
  Context (root : Z).
  Hypothesis Ir : In root R.

  Definition joins (Q : list (Z * Z)) : Prop := (forall x y, In (x, y) Q -> In x R /\ In y R) /\ forall x y, In x R -> In y R -> linked Q x y.

  Definition ginv (es : list (Z * Z)) (vs ts : list Z) : Prop :=
    NoDup vs /\ In root vs /\ NoDup ts /\ (forall r, In r ts -> In r R /\ ~ In r vs) /\ (forall r, In r R -> In r vs \/ In r ts) /\
    (forall x, ends es x -> In x vs) /\ (forall x, In x vs -> x = root \/ ends es x) /\ (forall x y, In x vs -> In y vs -> linked es x y) /\
    exists We, total_weight g es We /\ forall Q, joins Q -> exists A B X, Permutation Q (A ++ B) /\ We <= wsum (dd g) A /\
      In root X /\ (forall r, In r X -> In r R /\ In r vs) /\ (forall r, In r R -> In r X \/ In r ts) /\
      forall x y, In x R -> In y R -> linked (B ++ map (pair root) X) x y.

  Lemma ginv_start : ginv [] [root] (without R root).
  Proof using All.
    split; [constructor; [intros []|constructor]|]. split; [left; reflexivity|]. split; [apply NoDup_filter, NR|]. split.
    { intros r I. apply without_In in I as (I & N). split; [exact I|]. intros [E|[]]. congruence. }
    split; [intros r I; destruct (Z.eq_dec r root) as [->|N]; [left; left; reflexivity|right; apply without_In; auto]|].
    split; [intros x (y & [[]|[]])|]. split; [intros x [<-|[]]; left; reflexivity|]. split; [intros x y [<-|[]] [<-|[]]; apply linked_refl|].
    exists 0. split; [constructor|]. intros Q (HQ & LQ). exists [], Q, [root]. split; [reflexivity|]. split; [cbn; lia|]. split; [left; reflexivity|].
    split; [intros r [<-|[]]; split; [exact Ir|left; reflexivity]|]. split.
    { intros r I. destruct (Z.eq_dec r root) as [->|N]; [left; left; reflexivity|right; apply without_In; auto]. }
    intros x y Ix Iy. apply (linked_sub Q); [intros e He; apply in_app_iff; left; exact He|apply LQ; assumption].
  Qed.

  Lemma grow_ok : forall fuel mv es vs ts, ginv es vs ts -> (length ts <= fuel)%nat ->
    exists es' vs' mv', grow ord g sp fuel mv es vs ts = Ret (es', mv') /\ ginv es' vs' [].
  Proof using All.
    assert (Hn := Hn). assert (V0 := VR root Ir).
    induction fuel as [|fuel IH]; intros mv es vs ts G Lf.
    { destruct ts as [|t ts]; [|cbn in Lf; lia]. exists es, vs, mv. split; [reflexivity|exact G]. }
    destruct ts as [|t ts]; [exists es, vs, mv; split; [reflexivity|exact G]|].
    cbn [grow]. remember (t :: ts) as ts0 eqn:Ets. assert (It : exists x, In x ts0) by (exists t; rewrite Ets; left; reflexivity). clear Ets t ts. destruct It as (t & It). rename ts0 into ts.
    destruct G as (Nv & Irv & Nt & Ht & HR & He1 & He2 & Hl & We & TWe & HQ).
    assert (EF : filter (fun u => negb (mem u vs)) ts = ts).
    { clear - Ht. induction ts as [|x ts IHt]; [reflexivity|]. cbn [filter]. replace (mem x vs) with false by (symmetry; apply mem_false, Ht; left; reflexivity).
      cbn [negb]. f_equal. apply IHt. intros r Ir'. apply Ht. right. exact Ir'. }
    rewrite EF.
    assert (Iot : forall x, In x (ord ts) <-> In x ts) by (intros x; split; apply Permutation_in; [apply Hord|symmetry; apply Hord]).
    assert (Iov : forall x, In x (ord vs) <-> In x vs) by (intros x; split; apply Permutation_in; [apply Hord|symmetry; apply Hord]).
    assert (Ee : forall x y, In (x, y) es -> edge g x y) by (intros x y I; exact (tw_edge g es We x y TWe I)).
    assert (Rv : forall u v, In u R -> In v vs -> reachable g u v).
    { intros u v Iu Iv. eapply reach_trans; [apply (CR u root Iu Ir)|]. apply (linked_reachable g es); [exact Hg|exact Ee|apply Hl; assumption]. }
    destruct (nearest_ok sp (dd g) (ord ts) (ord vs) mv) as (u & v & En & Iu & Iv & Min).
    { intros E. apply Iot in It. rewrite E in It. destruct It. }
    { intros E. apply Iov in Irv. rewrite E in Irv. destruct Irv. }
    { intros u v Iu Iv. apply Iot in Iu. apply Iov in Iv. destruct (K u v (proj1 (Ht u Iu)) (Rv u v (proj1 (Ht u Iu)) Iv)) as (dist & prev & ch & a & E1 & E2 & _).
      exists (dist, prev). auto. }
    rewrite En. cbn [bind bound]. apply Iot in Iu. apply Iov in Iv. destruct (Ht u Iu) as (Ru & Nuv).
    assert (Dm : forall u' v', In u' ts -> In v' vs -> dd g u v <= dd g u' v') by (intros u' v' I1 I2; apply Min; [apply Iot, I1|apply Iov, I2]). clear Min En.
    destruct (K u v Ru (Rv u v Ru Iv)) as (dist & prev & ch & a & E1 & _ & Rt & C & TW & L & Ea).
    replace (dgetM sp u) with (Ret (dist, prev)) by (unfold dgetM; rewrite E1; reflexivity). cbn [bind snd].
    replace (dgetM prev v) with (Ret a) by (unfold dgetM; rewrite Ea; reflexivity). cbn [bind].
    rewrite (walk_back_eq prev u Rt _ v ch C (length g) a _ Ea L), along_eq. cbn [bind].
    assert (Duv : u <> v) by (intros ->; contradiction).
    destruct (chain_source prev u v ch C) as (Is & pv & Ipv); [congruence|].
    set (vs' := fold_left set_add (map fst ch) (set_add vs u)).
    assert (IV : forall x, In x vs' <-> In x vs \/ In x (map fst ch)).
    { intros x. unfold vs'. rewrite adds_In, set_add_In. split; [intros [[I| ->]|I]; auto|tauto]. }
    apply IH.
    2:{ assert (Q := without_length ts u Iu). lia. }
    assert (Lk1 : forall x y, linked es x y -> linked (es ++ norm ch) x y) by (intros x y; apply linked_sub; intros e He; apply in_app_iff; left; exact He).
    assert (Lk2 : forall x y, linked ch x y -> linked (es ++ norm ch) x y).
    { intros x y Lxy. apply (linked_sub (norm ch)); [intros e He; apply in_app_iff; right; exact He|]. apply norm_linked. exact Lxy. }
    split; [apply adds_NoDup, set_add_NoDup, Nv|]. split; [apply IV; left; exact Irv|]. split; [apply NoDup_filter, Nt|]. split.
    { intros r I. apply without_In in I as (I & Nr). destruct (Ht r I) as (Rr & Nrv). split; [exact Rr|]. rewrite IV. intros [J|J]; [contradiction|].
      destruct (chain_split g prev u v ch r C J) as (e1 & e2 & Ech & C2 & Wk). rewrite Ech in TW. apply tw_app in TW as (W1 & W2 & T1 & T2 & EW).
      assert (P2 : 0 < W2).
      { inversion C2 as [|? p e3 Q1 Q2]; subst; [congruence|]. inversion T2 as [|? ? w ? W' Hw T3]; subst. assert (0 < w) by (apply (Hp _ _ _ Hw)). assert (0 <= W') by (apply (tw_nonneg g e3 W' Hn T3)). lia. }
      destruct (dd_ok g Hg Hn r v (VR r Rr) (Rv r v Rr Iv)) as (_ & M). assert (M1 := M W1 (Wk W1 T1)). assert (M2 := Dm r v I Iv). lia. }
    split.
    { intros r I. rewrite IV, without_In. destruct (HR r I) as [J|J]; [tauto|]. destruct (Z.eq_dec r u) as [->|N]; [left; right; exact Is|tauto]. }
    split.
    { intros x E. apply ends_app in E as [E|E]; apply IV; [left; apply He1, E|]. apply (proj1 (norm_ends ch x)) in E as (y & [I|I]).
      - right. apply (in_map fst) in I. exact I.
      - destruct (chain_second prev u v ch y x C I) as [->|Q]; [left; exact Iv|right; exact Q]. }
    split.
    { intros x I. apply IV in I as [I|I]; [destruct (He2 x I) as [->|E]; [left; reflexivity|right; apply ends_app; left; exact E]|].
      right. apply ends_app. right. apply norm_ends. apply in_map_iff in I as ((x', y) & <- & I). exists y. left. exact I. }
    split.
    { assert (Q : forall x, In x vs' -> linked (es ++ norm ch) v x).
      { intros x I. apply IV in I as [I|I]; [apply Lk1, Hl; assumption|]. apply in_map_iff in I as ((x', y) & <- & I). cbn [fst].
        destruct (chain_ends prev u v ch x' y C I) as (Q & _). eapply linked_trans; [apply linked_sym, Lk2, (chain_linked prev u v ch C)|apply Lk2, Q]. }
      intros x y Ix Iy. eapply linked_trans; [apply linked_sym, Q, Ix|apply Q, Iy]. }
    exists (We + dd g u v). split.
    { apply tw_app. exists We, (dd g u v). split; [exact TWe|]. split; [apply norm_tw; [exact Hg|exact TW]|reflexivity]. }
    intros Q JQ. destruct (HQ Q JQ) as (A & B & X & PQ & LW & IrX & HX & HRX & LkX).
    assert (NuX : ~ In u X) by (intros I; apply HX in I; tauto).
    destruct (exchange R B X root u IrX Ir Ru NuX LkX) as (p & q & B' & PB & Cr & LkX').
    exists ((p, q) :: A), B', (u :: X). split; [rewrite PQ, PB; symmetry; apply Permutation_middle|]. split; [|split; [|split; [|split]]].
    - cbn [wsum fold_right fst snd]. fold (wsum (dd g) A).
      assert (IQ : In (p, q) Q) by (apply (Permutation_in _ (Permutation_sym PQ)), in_app_iff; right; apply (Permutation_in _ (Permutation_sym PB)); left; reflexivity).
      destruct (proj1 JQ p q IQ) as (Rp & Rq). assert (dd g u v <= dd g p q); [|lia].
      destruct Cr as [(Ip & Nq)|(Np & Iq)].
      + destruct (HRX q Rq) as [|Tq]; [contradiction|].
        rewrite (dd_sym g Hg Hn p (VR p Rp) p q ltac:(exists O; constructor) (CR p q Rp Rq)). apply Dm; [exact Tq|apply HX, Ip].
      + destruct (HRX p Rp) as [|Tp]; [contradiction|]. apply Dm; [exact Tp|apply HX, Iq].
    - right. exact IrX.
    - intros r [<-|I]; [split; [exact Ru|apply IV; right; exact Is]|]. destruct (HX r I). split; [assumption|apply IV; left; assumption].
    - intros r I. cbn [In]. rewrite without_In. destruct (HRX r I) as [J|J]; [tauto|]. destruct (Z.eq_dec u r) as [->|N]; [tauto|]. right. split; [exact J|congruence].
    - exact LkX'.
  Qed.

  Definition fine_tree (W : Z) (T : list (Z * Z)) : Prop := steiner_tree g R T W /\ listed_in_order T /\ (forall v, leaf T v -> In v R) /\
    forall T' W', steiner_tree g R T' W' -> Z.of_nat (length R) * W <= 2 * (Z.of_nat (length R) - 1) * W'.

  Lemma round_ok fuel best mv : (length R <= fuel)%nat -> (forall W T, best = Some (W, T) -> fine_tree W T) ->
    exists W T mv', mcp_round ord g sp fuel R (best, mv) root = Ret (Some (W, T), mv') /\ fine_tree W T.
  Proof using All.
    intros Lf HB. assert (Hn := Hn). cbn [mcp_round].
    destruct (grow_ok fuel mv [] [root] (without R root) ginv_start) as (es & vs & mv' & E & G).
    { assert (Q := without_length R root Ir). lia. }
    rewrite E. cbn [bind]. clear E. destruct G as (Nv & Irv & _ & _ & HR & He1 & He2 & Hl & We & TWe & HQ).
    assert (RV : forall r, In r R -> In r vs) by (intros r I; destruct (HR r I) as [J|[]]; exact J).
    destruct (two g R Hg Hn NR LR VR CR) as (r1 & r2 & I1 & I2 & D12).
    destruct (improve_ok ord g R es We Hord Hg Hn) as (W & T & E & St & Lo & Lv & LW).
    { exists r1, r2. auto. }
    { exact TWe. }
    { intros r I. destruct (He2 r (RV r I)) as [->|Q]; [|exact Q].
      assert (exists r', In r' R /\ root <> r') as (r' & Ir' & Dr) by (destruct (Z.eq_dec r1 root) as [->|]; [exists r2|exists r1]; auto).
      apply (linked_end es root r'); [apply Hl; [exact Irv|apply RV, Ir']|exact Dr]. }
    { intros u v Eu Ev. apply Hl; apply He1; assumption. }
    rewrite E. cbn [bind].
    assert (FT : fine_tree W T).
    { split; [exact St|]. split; [exact Lo|]. split; [exact Lv|]. intros T' W' St'.
      destruct (ratio g R Hg Hn NR LR VR CR T' W' St') as (P & PP & Ps).
      assert (IP : forall x, In x P <-> In x R) by (intros x; split; apply Permutation_in; [exact PP|symmetry; exact PP]).
      destruct (HQ (pairs P)) as (A & B & X & PQ & LA & _).
      { split; [|intros x y Ix Iy; apply pairs_linked; apply IP; assumption]. intros x y I. apply pairs_In in I as (l1 & l2 & EP).
        split; apply IP; rewrite EP; apply in_app_iff; right; [left; reflexivity|right; left; reflexivity]. }
      assert (EP : wsum (dd g) A + wsum (dd g) B = psum (dd g) P) by (rewrite <- wsum_app, <- (wsum_perm _ _ _ PQ); apply wsum_pairs).
      assert (B0 : 0 <= wsum (dd g) B).
      { assert (Q : forall p q, In (p, q) B -> 0 <= dd g p q).
        { intros p q I. assert (J : In (p, q) (pairs P)) by (apply (Permutation_in _ (Permutation_sym PQ)), in_app_iff; right; exact I).
          apply pairs_In in J as (l1 & l2 & E2). assert (Rp : In p R) by (apply IP; rewrite E2; apply in_app_iff; right; left; reflexivity).
          assert (Rq : In q R) by (apply IP; rewrite E2; apply in_app_iff; right; right; left; reflexivity).
          destruct (dd_ok g Hg Hn p q (VR p Rp) (CR p q Rp Rq)) as (Wk & _). apply (wwalk_nonneg g Hn p q _ Wk). }
        clear - Q. induction B as [|(p, q) B IHB]; [cbn; lia|]. cbn [wsum fold_right fst snd]. fold (wsum (dd g) B).
        assert (0 <= dd g p q) by (apply Q; left; reflexivity). assert (0 <= wsum (dd g) B) by (apply IHB; intros a b I; apply Q; right; exact I). lia. }
      assert (LL : W <= psum (dd g) P) by lia. assert (t0 := LR). remember (psum (dd g) P) as Y. clear - Ps LL t0. nia. }
    destruct best as [(bw, bt)|]; [destruct (W <? bw)|].
    - exists W, T, mv'. split; [reflexivity|exact FT].
    - exists bw, bt, mv'. split; [reflexivity|apply HB; reflexivity].
    - exists W, T, mv'. split; [reflexivity|exact FT].
  Qed.
End Grow.

Theorem paths_heuristic g R ord : undirected g -> (forall u v c, weight g u v = Some c -> 0 < c) -> NoDup R -> (2 <= length R)%nat ->
  (forall r, In r R -> vertex g r) -> (forall r r', In r R -> In r' R -> reachable g r r') -> (forall l, Permutation (ord l) l) ->
  exists W T, minimum_cost_paths_heuristic ord g R = Ret (W, T) /\ fine_tree g R W T.
Proof.
  intros Hg Hp NR LR VR CR Hord. unfold minimum_cost_paths_heuristic, mcp_upto.
  destruct (shortest_from_ok g R Hg (Hn g Hp) NR LR VR CR) as (sp & E & K). rewrite E. cbn [bind].
  assert (G : forall l best mv, (forall r, In r l -> In r R) -> (forall W T, best = Some (W, T) -> fine_tree g R W T) -> (best <> None \/ l <> []) ->
    exists W T mv', foldM (mcp_round ord g sp (S (length R)) R) l (best, mv) = Ret (Some (W, T), mv') /\ fine_tree g R W T).
  { induction l as [|r l IH]; intros best mv Hl HB Ne.
    - destruct best as [(W, T)|]; [|destruct Ne; congruence]. exists W, T, mv. split; [reflexivity|apply HB; reflexivity].
    - cbn [foldM]. destruct (round_ok g R ord Hg Hp NR LR VR CR Hord sp K r (Hl r (or_introl eq_refl)) (S (length R)) best mv ltac:(lia) HB) as (W & T & mv' & E' & F).
      rewrite E'. cbn [bind]. apply IH; [intros x I; apply Hl; right; exact I| |left; discriminate]. intros W' T' Q. injection Q as <- <-. exact F. }
  destruct (G R None None) as (W & T & mv' & E' & F); [auto|discriminate|right; intros ->; cbn in LR; lia|].
  rewrite E'. cbn [bind bound]. exists W, T. split; [reflexivity|exact F].
Qed.
