(** * Proofs about Steiner trees: the minimum cost paths heuristic with terminals that are not connected *)
From Coq Require Import ZArith List Lia Bool Permutation.
From Verif Require Import Base Py Dict Lists Lists2 Graph_Model Graph_Spec Graph_Proofs Graph_Proofs2 Graph_Props Trav_Model Trav_Spec Trav_Proofs Trav_Proofs2
  Paths_Model Paths_Spec Paths_Props Paths_Proofs6 MST_Model MST_Spec MST_Proofs MST_Props Color_Model Kor_Model Kor_Proofs Stein_Model Stein_Spec Stein_Proofs Stein_Proofs2 Stein_Proofs3
  Stein_Proofs4 Stein_Proofs5 Stein_Proofs6 Stein_Proofs8.
Import ListNotations.
Open Scope Z_scope.

Section Nearest.
  Context (sp : list (Z * (dists * prevs))) (P : Z -> Z -> Prop).
  Definition fine (st : ext * option (Z * Z)) : Prop := (fst st <> None -> snd st <> None) /\ forall a b, snd st = Some (a, b) -> P a b.
  Definition known_to (u v : Z) : Prop := exists r, dget sp u = Some r /\ dget (fst r) v = Some (xd sp u v) /\ (xd sp u v <> None -> P u v).
  Definition after (st st' : ext * option (Z * Z)) : Prop := fine st' /\ (snd st <> None -> snd st' <> None) /\ (fst st <> None -> fst st' <> None).
  Lemma nearer_step u v st : known_to u v -> fine st -> exists st', nearer sp u st v = Ret st' /\ after st st' /\ (xd sp u v <> None -> fst st' <> None).
  Proof using Type.
    intros (r & E1 & E2 & H) F. unfold nearer, dgetM. rewrite E1. cbn [bind]. rewrite E2. cbn [bind]. destruct (xd sp u v) as [x|] eqn:E.
    - destruct (ltx x (fst st)) eqn:L.
      + eexists. split; [reflexivity|]. unfold after, fine. cbn [fst snd]. repeat split; try discriminate. intros a b Q. injection Q as <- <-. apply H. discriminate.
      + exists st. split; [reflexivity|]. split; [split; [exact F|auto]|]. intros _ N. unfold ltx in L. rewrite N in L. discriminate L.
    - exists st. split; [reflexivity|]. split; [split; [exact F|auto]|]. congruence.
  Qed.
  Lemma nearer_all u : forall vs st, (forall v, In v vs -> known_to u v) -> fine st -> exists st', foldM (nearer sp u) vs st = Ret st' /\ after st st' /\ forall v, In v vs -> xd sp u v <> None -> fst st' <> None.
  Proof using Type.
    induction vs as [|v vs IH]; intros st H F; [exists st; split; [reflexivity|]; split; [split; [exact F|auto]|intros v []]|].
    destruct (nearer_step u v st (H v (or_introl eq_refl)) F) as (s1 & E1 & (F1 & A1 & B1) & C1). cbn [foldM]. rewrite E1. cbn [bind].
    destruct (IH s1 (fun x I => H x (or_intror I)) F1) as (s2 & E2 & (F2 & A2 & B2) & C2). exists s2. split; [exact E2|]. split; [split; [exact F2|auto]|].
    intros x [<-|I] N; [auto|apply (C2 x I N)].
  Qed.
  Lemma nearest_all_x vs : forall us st, (forall u v, In u us -> In v vs -> known_to u v) -> fine st -> exists st', nearest sp us vs st = Ret st' /\ after st st' /\ forall u v, In u us -> In v vs -> xd sp u v <> None -> fst st' <> None.
  Proof using Type.
    unfold nearest. induction us as [|u us IH]; intros st H F; [exists st; split; [reflexivity|]; split; [split; [exact F|auto]|intros u v []]|].
    destruct (nearer_all u vs st (fun v => H u v (or_introl eq_refl)) F) as (s1 & E1 & (F1 & A1 & B1) & C1). cbn [foldM]. rewrite E1. cbn [bind].
    destruct (IH s1 (fun x v I => H x v (or_intror I)) F1) as (s2 & E2 & (F2 & A2 & B2) & C2). exists s2. split; [exact E2|]. split; [split; [exact F2|auto]|].
    intros x v [<-|I] Iv N; [apply B2, (C1 v Iv N)|apply (C2 x v I Iv N)].
  Qed.
End Nearest.

Section Lost.
  Context (g : graph) (r0 : Z) (rest : list Z) (ord : list Z -> list Z).
  Notation All := (r0 :: rest).
  Hypothesis Hg : undirected g.
  Hypothesis Hn : nonneg g.
  Hypothesis VA : forall r, In r All -> vertex g r.
  Hypothesis Ho : forall l, Permutation (ord l) l.
  Context (sp : list (Z * (dists * prevs))).
  Hypothesis Hsp : forall u, In u All -> exists r, dijkstra g u = Ret r /\ dget sp u = Some r.
  Definition both (a b : Z) : Prop := In a All /\ reachable g r0 a /\ reachable g r0 b.
  Lemma xd_v u v : In u All -> vertex g v -> exists r, dget sp u = Some r /\ dget (fst r) v = Some (xd sp u v) /\ (reachable g u v -> xd sp u v <> None) /\ (xd sp u v <> None -> reachable g u v).
  Proof using All.
    intros Iu Vv. destruct (Hsp u Iu) as ((dist, prev) & Ed & Es). exists (dist, prev). split; [exact Es|]. cbn [fst].
    destruct (C59_dijkstra g u Hg (VA u Iu) Hn) as (dist' & prev' & Ed' & X & _). rewrite Ed in Ed'. injection Ed' as <- <-. destruct (X v Vv) as (d & Edv & Hd).
    assert (E : xd sp u v = d) by (unfold xd; rewrite Es, Edv; reflexivity). rewrite E. split; [exact Edv|]. split.
    - intros Rv. destruct (dij_ok g Hg Hn u (VA u Iu)) as (dist2 & prev2 & Ed2 & _ & H2). rewrite Ed in Ed2. injection Ed2 as <- <-. destruct (H2 v Rv) as (H3 & _). congruence.
    - destruct d as [w|]; [|congruence]. intros _. apply (reach_wwalk g u). exists w. apply Hd.
  Qed.
  Lemma from_root v : reachable g r0 v -> vertex g v.
  Proof using Hg VA.
    intros (n & Wk). destruct Wk as [|n u v _ Ev]; [apply VA; left; reflexivity|]. destruct Hg as (_ & _ & C & _). apply (C u v Ev).
  Qed.
  Lemma known_both u v : In u All -> reachable g r0 v -> known_to sp both u v.
  Proof using All.
    intros Iu Rv. destruct (xd_v u v Iu (from_root v Rv)) as (r & E1 & E2 & _ & B). exists r. split; [exact E1|]. split; [exact E2|]. intros N. split; [exact Iu|]. split; [|exact Rv].
    eapply reach_trans; [exact Rv|]. apply (reach_sym g Hg), B, N.
  Qed.

  Context (r : Z).
  Hypothesis Nr : ~ reachable g r0 r.
  Lemma grow_lost : forall fuel mv es vs ts, (forall v, In v vs -> reachable g r0 v) -> (forall u, In u ts -> In u All) -> In r ts -> (forall a b, mv = Some (a, b) -> both a b) ->
    (mv <> None \/ exists u v, In u ts /\ ~ In u vs /\ In v vs /\ reachable g u v) -> grow ord g sp fuel mv es vs ts = Diverge.
  Proof using All r Nr.
    induction fuel as [|fuel IH]; intros mv es vs ts Hv Ht Ir Hm Hs; (destruct ts as [|t ts]; [destruct Ir|]); [reflexivity|].
    cbn [grow]. remember (t :: ts) as ts0 eqn:Ets. clear Ets t ts. rename ts0 into ts.
    set (us := ord (filter (fun u => negb (mem u vs)) ts)).
    assert (Ius : forall u, In u us <-> In u ts /\ ~ In u vs).
    { intros u. assert (A : In u us <-> In u (filter (fun u => negb (mem u vs)) ts)) by (split; apply Permutation_in; [apply Ho|symmetry; apply Ho]).
      rewrite A, filter_In, negb_true_iff. rewrite <- (Trav_Proofs.mem_In u vs). destruct (mem u vs); intuition congruence. }
    assert (Ivs : forall v, In v (ord vs) <-> In v vs) by (intros v; split; apply Permutation_in; [apply Ho|symmetry; apply Ho]).
    destruct (nearest_all_x sp both (ord vs) us (None, mv)) as ((md, mv') & E & ((F1 & F2) & A & _) & C).
    { intros u v Iu Iv. apply known_both; [apply Ht, Ius, Iu|apply Hv, Ivs, Iv]. }
    { split; [intros N; destruct (N eq_refl)|exact Hm]. }
    cbn [fst snd] in F1, F2, A, C. rewrite E. cbn [bind]. destruct mv' as [(u, v)|].
    2:{ exfalso. destruct Hs as [N|(u & v & Iu & Nu & Iv & Ruv)]; [apply A; [exact N|reflexivity]|]. apply F1; [|reflexivity]. apply (C u v); [apply Ius; auto|apply Ivs, Iv|].
        destruct (xd_v u v (Ht u Iu) (from_root v (Hv v Iv))) as (_ & _ & _ & B & _). apply B, Ruv. }
    cbn [bind bound]. destruct (F2 u v eq_refl) as (Iu & Ru & Rv). assert (Ruv : reachable g u v) by (eapply reach_trans; [apply (reach_sym g Hg), Ru|exact Rv]).
    destruct (dij_ok g Hg Hn u (VA u Iu)) as (dist & prev & Ed & Rt & Hd). destruct (Hd v Ruv) as (_ & _ & ch & a & Cc & TW & L & Ea).
    destruct (Hsp u Iu) as (q & Er & Eg). rewrite Ed in Er. injection Er as <-.
    replace (dgetM sp u) with (Ret (dist, prev)) by (unfold dgetM; rewrite Eg; reflexivity). cbn [bind snd].
    replace (dgetM prev v) with (Ret a) by (unfold dgetM; rewrite Ea; reflexivity). cbn [bind].
    rewrite (walk_back_eq prev u Rt _ v ch Cc (length g) a _ Ea L), along_eq. cbn [bind]. apply IH.
    - intros x I. apply adds_In in I as [I|I]; [apply set_add_In in I as [I| ->]; [apply Hv, I|exact Ru]|].
      destruct (chain_split g prev u v ch x Cc I) as (e1 & e2 & -> & _ & Wk). apply tw_app in TW as (W1 & W2 & T1 & T2 & _). specialize (Wk W1 T1).
      eapply reach_trans; [exact Rv|]. apply (reach_sym g Hg), (reach_wwalk g x). exists W1. exact Wk.
    - intros x I. apply without_In in I as (I & _). apply Ht, I.
    - apply without_In. split; [exact Ir|]. intros ->. contradiction.
    - intros a' b' Q. injection Q as <- <-. repeat split; assumption.
    - left. discriminate.
  Qed.
  Lemma grow_cut fuel es ts : ts <> [] -> ~ In r0 ts -> (forall u, In u ts -> In u All /\ ~ reachable g r0 u) -> grow ord g sp (S fuel) None es [r0] ts = Raise UnboundLocalError.
  Proof using All.
    intros N0 Nt Ht. destruct ts as [|t ts]; [congruence|]. cbn [grow]. remember (t :: ts) as ts0 eqn:Ets. clear Ets t ts N0. rename ts0 into ts.
    set (us := ord (filter (fun u => negb (mem u [r0])) ts)). assert (O1 : ord [r0] = [r0]) by (apply Permutation_length_1_inv; symmetry; apply Ho). rewrite O1.
    assert (Q : nearest sp us [r0] (None, None) = Ret (None, None)); [|rewrite Q; reflexivity].
    assert (H : forall u, In u us -> In u All /\ ~ reachable g r0 u) by (intros u I; apply Ht; apply (Permutation_in _ (Ho _)) in I; apply filter_In in I; tauto).
    clearbody us. unfold nearest. induction us as [|u us IHu]; [reflexivity|]. cbn [foldM]. destruct (H u (or_introl eq_refl)) as (Iu & Nu).
    destruct (xd_v u r0 Iu (VA r0 (or_introl eq_refl))) as (q & E1 & E2 & _ & B). unfold nearer at 1, dgetM. rewrite E1. cbn [bind]. rewrite E2. cbn [bind].
    destruct (xd sp u r0) as [w|]; [exfalso; apply Nu, (reach_sym g Hg), B; discriminate|]. apply IHu. intros x I. apply H. right. exact I.
  Qed.
End Lost.

Theorem paths_lost ord g r0 rest r : (forall l, Permutation (ord l) l) -> undirected g -> nonneg g -> NoDup (r0 :: rest) -> (forall x, In x (r0 :: rest) -> vertex g x) -> In r rest -> ~ reachable g r0 r ->
  ((exists x, In x rest /\ reachable g r0 x) -> forall fuel, mcp_upto fuel ord g (r0 :: rest) = Diverge) /\
  ((forall x, In x rest -> ~ reachable g r0 x) -> forall fuel, mcp_upto (S fuel) ord g (r0 :: rest) = Raise UnboundLocalError).
Proof.
  intros Ho Hg Hn NA VA Ir Nr. unfold mcp_upto. destruct (shortest_all g r0 rest Hg Hn VA) as (sp & E & Hsp). rewrite E. cbn [bind foldM].
  assert (N0 : ~ In r0 rest) by (inversion NA; assumption).
  assert (EW : without (r0 :: rest) r0 = rest).
  { unfold without. cbn [filter]. rewrite Z.eqb_refl. cbn [negb]. clear - N0. induction rest as [|y l IH]; [reflexivity|]. cbn [filter]. destruct (Z.eqb_spec y r0) as [->|_]; [destruct N0; left; reflexivity|].
    cbn [negb]. f_equal. apply IH. intros I. apply N0. right. exact I. }
  split.
  - intros (x & Ix & Rx) fuel. unfold mcp_round at 1. rewrite EW. rewrite (grow_lost g r0 rest ord Hg Hn VA Ho sp Hsp r Nr fuel None [] [r0] rest); [reflexivity| | |exact Ir|discriminate|].
    + intros v [<-|[]]. exists O. constructor.
    + intros u I. right. exact I.
    + right. exists x, r0. split; [exact Ix|]. split; [intros [<-|[]]; contradiction|]. split; [left; reflexivity|]. apply (reach_sym g Hg), Rx.
  - intros H fuel. unfold mcp_round at 1. rewrite EW. rewrite (grow_cut g r0 rest ord Hg Hn VA Ho sp Hsp r Nr fuel [] rest); [reflexivity| |exact N0|].
    + intros ->. destruct Ir.
    + intros u I. split; [right; exact I|apply H, I].
Qed.
