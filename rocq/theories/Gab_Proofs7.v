(** * Proofs: gabow *)
From Coq Require Import ZArith List Bool Lia Permutation Sorting.Sorted.
From Verif Require Import Base Py Lists Lists2 Dict Gen Graph_Model Graph_Spec Graph_Proofs Graph_Proofs2 Graph_Props UF_Model UF_Spec UF_Proofs2 Trav_Model Trav_Spec Trav_Proofs2 Paths_Model Paths_Proofs MST_Model MST_Spec MST_Proofs MST_Proofs3 MST_Props
  Gab_Spec Gab_Model Gab_Proofs Gab_Proofs2 Gab_Proofs3 Gab_Proofs4 Gab_Proofs5 Gab_Proofs6.
Import ListNotations.
Open Scope Z_scope.

Lemma parents_none (prev : prevs) : (length (parent_edges prev) + length (filter (fun vp => match snd vp with None => true | _ => false end) prev) = length prev)%nat.
Proof. unfold parent_edges. induction prev as [|(v & [p|]) l IH]; cbn [flat_map filter snd length app]; [reflexivity| |]; lia. Qed.

Section Start.
  Context (g : graph) (ord : list (Z * Z) -> list (Z * Z)).
  Hypothesis Hg : undirected g.
  Hypothesis Hc : connected g.
  Hypothesis Ho : forall l, Permutation (ord l) l.
  Notation V := (map fst g).
  Notation edges := (sorted_edges ord g).

  Lemma edges_perm : Permutation edges (edge_set g).
  Proof using Ho. unfold sorted_edges. rewrite sort_key_perm. apply Ho. Qed.
  Lemma edges_Ed : forall x y, In (x, y) edges -> In x V /\ In y V /\ edge g x y /\ x <= y.
  Proof using Hg Ho.
    intros x y I. apply (Permutation_in _ edges_perm) in I. apply (C55_edge_set g Hg) in I as (L & E). pose proof Hg as (_ & _ & C & Sy). destruct E as (w & Q). split; [apply (C y x); exists w; rewrite Sy; exact Q|]. split; [apply (C x y); exists w; exact Q|]. split; [exists w; exact Q|exact L].
  Qed.
  Lemma edges_Ec : forall x y, x <= y -> edge g x y -> In (x, y) edges.
  Proof using Hg Ho. intros x y L E. apply (Permutation_in _ (Permutation_sym edges_perm)). apply (C55_edge_set g Hg). auto. Qed.
  Lemma edges_EdN : NoDup edges.
  Proof using Hg Ho. apply (Permutation_NoDup (Permutation_sym edges_perm)). apply (C55_edge_set g Hg). Qed.
  Lemma edges_EdS : StronglySorted (fun a b => arc_key g a <= arc_key g b) edges.
  Proof using. apply sort_key_sorted. Qed.

  Lemma start_ok root : In root V -> exists W prev F D, prim_previous g (Some root) = Ret (W, prev) /\ fok g (dset prev root (Some root)) F /\ rooted V root F D /\
    (forall v, In v V -> v <> root -> edge g v (F v)) /\ tree_of g W (Tx g root F) /\ forall T' W', tree_of g W' T' -> W <= W'.
  Proof using Hg Hc.
    intros Ir. destruct (C63_prim_previous g root Hg Ir) as (W & prev & E & Ek & Er & HV). destruct (HV V) as (ST & TW & Min).
    { split; [apply Hg|]. intros v. split; [intros I; apply Hc; assumption|]. intros (n & Wk). destruct Wk as [|n u v Wk Q]; [exact Ir|]. destruct Hg as (_ & _ & C & _). apply (C u v Q). }
    assert (Np : NoDup (map fst prev)) by (rewrite Ek; apply Hg).
    assert (Rt : forall v, In (v, None) prev <-> v = root).
    { assert (I0 : In (root, None) prev) by (apply dget_Some_In, Er). intros v. split; [|intros ->; exact I0]. intros I. pose proof (parents_none prev) as Q. destruct ST as (_ & _ & L). rewrite <- Ek, map_length in L. set (N := filter _ prev) in Q. assert (LN : length N = 1%nat) by lia.
      assert (J0 : In (root, None) N) by (apply filter_In; auto). assert (J : In (v, None) N) by (apply filter_In; auto). destruct N as [|a [|b N]]; try discriminate. destruct J0 as [J0|[]], J as [J|[]]. congruence. }
    assert (HT : forall u p, In (u, p) (parent_edges prev) <-> In (u, Some p) prev).
    { intros u p. unfold parent_edges. rewrite in_flat_map. split; [intros ((a & [b|]) & I & J); [|destruct J]; destruct J as [J|[]]; injection J as -> ->; exact I|intros I; exists (u, Some p); split; [exact I|left; reflexivity]]. }
    destruct (fathers_of g root Hg prev (parent_edges prev) Np) as (F & D & Fo & R & HT').
    - intros v. rewrite Ek. reflexivity.
    - exact Rt.
    - intros v p I. apply HT in I. split; [apply ST in I; apply I|exact I].
    - intros u p I. apply HT, I.
    - intros v Iv. apply ST; assumption.
    - exists W, prev, F, D. split; [exact E|]. split; [exact Fo|]. split; [exact R|].
      assert (Te : forall v, In v V -> v <> root -> edge g v (F v)) by (intros v Iv Nv; apply (proj1 ST v (F v)), HT'; assumption). split; [exact Te|].
      pose proof (tree_of_canon g Hg _ W ST TW) as T0. destruct (Tx_tree g Hg root F D R Te) as (W1 & T1).
      assert (Eq : Tx g root F = canon (parent_edges prev)). { apply (tree_eq g Hg W1 W _ _ T1 T0). intros (a & b) I. apply canon_In in I as (u & p & I & Q). apply canon_In. exists u, p. split; [|exact Q]. apply tedges_In in I as (Iu & Nu & ->). apply HT'; assumption. }
      split; [rewrite Eq; exact T0|]. intros T' W' (H1 & _ & H2). apply (Min T' W' H1 H2).
  Qed.

  Context (push : list entry -> entry -> outcome (list entry)) (pop : list entry -> outcome (entry * list entry)).
  Hypothesis Hh : heapq e_weight entry_tie push pop.

  Lemma gabow_ok k fuel : g <> [] -> let '(l, st) := gabow push pop ord g k fuel in
    facts g l /\ l <> [] /\ (length l <= S fuel)%nat /\ (forall k0, k = Some k0 -> Z.of_nat (length l) <= Z.max 1 k0) /\
    match st with
    | GEnded => (forall W T, tree_of g W T -> In T (map snd l)) \/ exists k0, k = Some k0 /\ Z.of_nat (length l) = Z.max 1 k0
    | GMore => length l = S fuel
    | GRaised e => e = TypeError
    | GStuck => False
    end.
  Proof using Hg Hc Ho Hh.
    intros Ne. unfold gabow. destruct (vertices g) as [|root vs] eqn:Ev.
    - exfalso. apply Ne. unfold vertices in Ev. pose proof (zsort_perm (dkeys g)) as P. rewrite Ev in P. apply Permutation_nil in P. destruct g; [reflexivity|discriminate].
    - assert (Ir : In root V). { apply (Permutation_in _ (zsort_perm (dkeys g))). fold (vertices g). rewrite Ev. left. reflexivity. }
      destruct (start_ok root Ir) as (W & prev & F & D & E & Fo & R & Te & HW & Min). rewrite E. set (father := dset prev root (Some root)) in *.
      destruct (find_exchange_ok g root Hg F D father R Fo Te edges edges_Ed edges_EdN edges_EdS [] []) as (b & Eb & Sb); [intros a b []|constructor|intros e []|]. rewrite Eb. destruct b as ((ew & e) & f).
      replace (fatherless father) with false by (symmetry; unfold fatherless; destruct (existsb _ father) eqn:Q; [|reflexivity]; apply existsb_exists in Q as ((v & p) & Iv & Q); apply (fok_In g father F Fo) in Iv as (_ & ->); discriminate).
      rewrite (father_edges_ok g root Hg father F D Fo R).
      destruct Hh as (heap & H1 & H2 & H3). set (x := Entry (add_inf W ew) e f father [] []).
      assert (FY : facts g [(W, Tx g root F)]).
      { split; [intros W0 T [I|[]]; injection I as <- <-; exact HW|]. split; [constructor; [intros []|constructor]|]. split; [constructor; constructor|]. intros W0 T HT _ W1 T1 [I|[]]. injection I as <- <-. apply (Min T W0 HT). }
      assert (LI : linv heap g root edges [(W, Tx g root F)] [x]).
      { split; [apply H1|]. split; [|split; [constructor; constructor|split; [|discriminate]]].
        - intros y [<-|[]]. exists F, D, W, (ew, e, f). cbn [e_father e_in e_out x]. split; [exact Fo|]. split; [exact R|]. split; [exact Te|]. split; [exact HW|]. split; [split; [eauto|split; intros a b []]|]. split; [intros T W0 _ HT; apply (Min T W0 HT)|]. split; [constructor|]. split; [intros e0 []|]. split; [left; reflexivity|]. split; [intros T [I|[]] _; symmetry; exact I|]. split; [exact Sb|reflexivity].
        - intros T W0 HT. exists x. split; [left; reflexivity|]. split; [eauto|split; intros a b []]. }
      pose proof (loop_ok push pop heap H2 H3 g root Hg edges edges_Ed edges_EdN edges_EdS edges_Ec fuel [(W, Tx g root F)] 1 k [x] FY LI) as L. destruct (gabow_loop push pop g edges root fuel 1 k [x] []) as (l & st). destruct L as (L1 & L2 & L3 & L4). cbn [app] in L1. split; [exact L1|]. split; [discriminate|]. split; [cbn [length]; lia|].
      split; [intros k0 Q; specialize (L3 k0 Q); cbn [length]; lia|]. destruct st; [|cbn [length]; lia|exact L4|exact L4]. destruct L4 as [L4|(k0 & Q & L4)]; [left; exact L4|right; exists k0; split; [exact Q|cbn [length]; lia]].
  Qed.
End Start.

(** ** Graphs that are not connected *)
Section Apart.
  Context (g : graph) (ord : list (Z * Z) -> list (Z * Z)) (root : Z).
  Hypothesis Hg : undirected g.
  Hypothesis Ho : forall l, Permutation (ord l) l.
  Hypothesis Hr : vertex g root.
  Notation edges := (sorted_edges ord g).

  Lemma start_apart : exists W prev V F D, prim_previous g (Some root) = Ret (W, prev) /\ component_of g root V /\ incl V (map fst g) /\ rooted V root F D /\
    map fst prev = map fst g /\ (forall v, In v V -> dget (dset prev root (Some root)) v = Some (Some (F v))) /\ (forall v, In v V -> v <> root -> edge g v (F v)) /\
    (forall v, vertex g v -> ~ In v V -> dget (dset prev root (Some root)) v = Some None).
  Proof using Hg Hr.
    destruct (C63_prim_previous g root Hg Hr) as (W & prev & E & Ek & Er & HV). destruct (bfs_list_ok g Hg root Hr) as (V & _ & NV & HR & VU). destruct (HV V (conj NV HR)) as (ST & _).
    assert (Np : NoDup (dkeys prev)) by (unfold dkeys; rewrite Ek; apply Hg).
    assert (Ir : In root V) by (apply HR; exists O; constructor).
    assert (HT : forall u p, In (u, p) (parent_edges prev) <-> dget prev u = Some (Some p)).
    { intros u p. rewrite (parent_edges_In prev u p Np). unfold Paths_Proofs.getD. destruct (dget prev u) as [o|]; split; congruence. }
    set (F := fun v => match dget prev v with Some (Some p) => p | _ => root end).
    assert (Frt : F root = root) by (unfold F; rewrite Er; reflexivity).
    assert (Ks : incl V (root :: map fst (parent_edges prev))).
    { apply NoDup_length_incl.
      - constructor.
        + intros I. apply in_map_iff in I as ((u & p) & Q & I). cbn in Q. subst u. apply HT in I. congruence.
        + unfold parent_edges. clear - Np. unfold dkeys in Np. induction prev as [|(u & [p|]) l IH]; cbn [flat_map map fst app] in *; inversion Np; subst; [constructor| |auto]. constructor; [|auto]. intros I. apply H1. apply in_map_iff in I as ((a & b) & Q & I). cbn in Q. subst a. apply in_flat_map in I as ((a & [c|]) & I & J); [|destruct J]. destruct J as [J|[]]. injection J as -> ->. apply (in_map fst) in I. exact I.
      - cbn [length]. rewrite map_length. destruct ST as (_ & _ & L). lia.
      - intros v [<-|I]; [exact Ir|]. apply in_map_iff in I as ((u & p) & Q & I). cbn in Q. subst u. apply ST in I. apply I. }
    assert (FT : forall v, In v V -> v <> root -> dget prev v = Some (Some (F v)) /\ In (v, F v) (parent_edges prev)).
    { intros v Iv Nv. destruct (Ks v Iv) as [Q|I]; [congruence|]. apply in_map_iff in I as ((u & p) & Q & I). cbn in Q. subst u. pose proof I as J. apply HT in J. unfold F. rewrite J. auto. }
    destruct (rooted_intro V root F NV Ir) as (D & R); [|exact Frt| |].
    - intros v Iv. destruct (Z.eq_dec v root) as [->|Nv]; [rewrite Frt; exact Ir|]. destruct (FT v Iv Nv) as (_ & I). apply ST in I. apply I.
    - apply (linked_iter V root F (parent_edges prev) Frt); [|intros v Iv; apply ST; assumption]. intros u p I. apply HT in I. unfold F. rewrite I. reflexivity.
    - exists W, prev, V, F, D. split; [exact E|]. split; [split; assumption|]. split; [exact VU|]. split; [exact R|]. split; [exact Ek|]. split; [|split].
      + intros v Iv. rewrite dget_dset. destruct (Z.eqb_spec root v) as [<-|Nv]; [rewrite Frt; reflexivity|]. apply FT; congruence.
      + intros v Iv Nv. destruct (FT v Iv Nv) as (_ & I). apply ST in I. apply I.
      + intros v Iv Nv. rewrite dget_dset. destruct (Z.eqb_spec root v) as [<-|_]; [contradiction|]. destruct (dget prev v) as [[p|]|] eqn:Q; [|reflexivity|].
        * apply HT in Q. apply ST in Q. destruct Nv. apply Q.
        * assert (I : In v (dkeys prev)) by (unfold dkeys; rewrite Ek; exact Iv). apply dget_key in I as (o & I). congruence.
  Qed.

  Lemma gabow_apart push pop k fuel v : vertex g v -> ~ reachable g root v -> (forall u, vertex g u -> root <= u) ->
    ((exists x y, edge g x y /\ ~ reachable g root x) -> gabow push pop ord g k fuel = ([], GRaised KeyError)) /\
    ((forall x y, edge g x y -> reachable g root x) -> gabow push pop ord g k fuel = ([], GRaised TypeError)).
  Proof using Hg Ho Hr.
    intros Hv Nv Least. destruct start_apart as (W & prev & V & F & D & E & (NV & HR) & VU & R & Ek & Fa & Te & Fn). unfold gabow.
    assert (Ev : exists vs, vertices g = root :: vs).
    { assert (I : In root (vertices g)) by (apply (Permutation_in _ (Permutation_sym (zsort_perm (dkeys g)))); exact Hr). pose proof (zsort_sorted (dkeys g)) as So. fold (vertices g) in So. destruct (vertices g) as [|r vs] eqn:Q; [destruct I|]. exists vs. f_equal.
      assert (root <= r) by (apply Least; apply (Permutation_in _ (zsort_perm (dkeys g))); fold (vertices g); rewrite Q; left; reflexivity). destruct I as [I|I]; [exact I|]. inversion So as [|? ? _ Q']; subst. rewrite Forall_forall in Q'. specialize (Q' root I). lia. }
    destruct Ev as (vs & ->). rewrite E. set (father := dset prev root (Some root)) in *.
    set (inside := fun e : Z * Z => if in_dec Z.eq_dec (fst e) V then true else false).
    assert (Stay : forall x y, edge g x y -> In x V -> In y V). { intros x y Exy Ix. apply HR in Ix as (n & Wn). apply HR. exists (S n). apply (walk_S _ _ n x y Wn Exy). }
    assert (Run : forall pre post, edges = pre ++ post -> (forall e, In e pre -> inside e = true) -> exists X b K, foldM (exchange_step g father) pre (nuf_init (vertices g), [], (None, None, None)) = Ret (X, [], b) /\ ninv (map fst g) X (top F D K) /\ outside g V K).
    { intros pre post Ep In1.
      assert (Ed : forall x y, In (x, y) pre -> In x V /\ In y V /\ edge g x y /\ x <= y).
      { intros x y I. assert (I' : In (x, y) edges) by (rewrite Ep; apply in_or_app; left; exact I). destruct (edges_Ed g ord Hg Ho x y I') as (_ & _ & Exy & L). specialize (In1 _ I). unfold inside in In1. cbn [fst] in In1. destruct (in_dec Z.eq_dec x V) as [Ix|]; [|discriminate]. split; [exact Ix|]. split; [apply (Stay x y Exy Ix)|]. split; assumption. }
      assert (EdN : NoDup pre). { pose proof (edges_EdN g ord Hg Ho) as Q. rewrite Ep in Q. apply (proj1 (NoDup_app_inv _ _ Q)). }
      assert (EdS : StronglySorted (fun a b => arc_key g a <= arc_key g b) pre). { pose proof (edges_EdS g ord) as Q. rewrite Ep in Q. clear - Q. induction pre as [|a pre IH]; [constructor|]. cbn [app] in Q. inversion Q; subst. constructor; [apply IH; assumption|]. rewrite Forall_forall in *. intros z Iz. apply H2. apply in_or_app. left. exact Iz. }
      assert (Len : (length V <= length father)%nat). { rewrite <- (map_length fst father). apply NoDup_incl_length; [exact NV|]. intros u Iu. apply (dget_key father u). rewrite (Fa u Iu). eauto. }
      destruct (edges_loop_ok g V root F D father VU R Fa Len Te pre Ed EdN EdS [] (fun _ => false) (nuf_init (vertices g)) []) as (X & b & E' & (K & NK & KO) & _ & _); [reflexivity|intros u _ _; reflexivity| |tauto|intros e []|].
      - apply (ninv_ext _ _ (fun x => x)); [intros u _; symmetry; apply top_free; reflexivity|]. destruct (ninv_init (vertices g)) as (Q1 & Q2). assert (PV : forall u, In u (vertices g) <-> In u (map fst g)) by (intros u; split; apply Permutation_in; [|symmetry]; apply (zsort_perm (dkeys g))). split; [intros u; rewrite Q1; apply PV|]. intros u Iu. apply Q2, PV, Iu.
      - exists X, b, K. split; [exact E'|]. split; assumption. }
    assert (Sp : (forall e, In e edges -> inside e = true) \/ exists pre e post, edges = pre ++ e :: post /\ inside e = false /\ forall e', In e' pre -> inside e' = true).
    { clear. induction edges as [|e l IH]; [left; intros e []|]. destruct (inside e) eqn:Q.
      - destruct IH as [IH|(pre & e1 & post & -> & Q1 & Q2)]; [left; intros e' [<-|I]; auto|right]. exists (e :: pre), e1, post. split; [reflexivity|]. split; [exact Q1|]. intros e' [<-|I]; auto.
      - right. exists [], e, l. split; [reflexivity|]. split; [exact Q|intros e' []]. }
    unfold find_exchange. cbn [foldM bind fold_left]. split.
    - intros (x & y & Exy & Nx). destruct Sp as [Sp|(pre & (a & b) & post & Ep & Q & Sp)].
      + exfalso. apply Nx. apply HR. assert (Eyx : edge g y x) by (destruct Exy as (w & H); exists w; rewrite (proj2 (proj2 (proj2 Hg))); exact H). destruct (Z_le_gt_dec x y) as [L|L].
        * specialize (Sp (x, y) (edges_Ec g ord Hg Ho x y L Exy)). unfold inside in Sp. cbn [fst] in Sp. destruct (in_dec Z.eq_dec x V); [assumption|discriminate].
        * specialize (Sp (y, x) (edges_Ec g ord Hg Ho y x ltac:(lia) Eyx)). unfold inside in Sp. cbn [fst] in Sp. destruct (in_dec Z.eq_dec y V) as [I|]; [apply (Stay y x Eyx I)|discriminate].
      + destruct (Run pre ((a, b) :: post) Ep Sp) as (X & b0 & K & E' & NK & KO). rewrite Ep, foldM_app, E'. cbn [bind foldM].
        destruct (edges_Ed g ord Hg Ho a b) as (Ia & Ib & Eab & _); [rewrite Ep; apply in_elt|]. unfold inside in Q. cbn [fst] in Q. destruct (in_dec Z.eq_dec a V) as [|Na]; [discriminate|].
        assert (Nb : ~ In b V) by (intros I; apply Na; apply (Stay b a); [destruct Eab as (w & H); exists w; rewrite (proj2 (proj2 (proj2 Hg))); exact H|exact I]).
        unfold exchange_step. cbn [pair_mem existsb orb]. unfold not_father at 1 2. unfold dgetM. rewrite (Fn a Ia Na), (Fn b Ib Nb). cbn [bind negb].
        destruct (nfind_ok (map fst g) X (top F D K) a NK Ia) as (X1 & E1 & _). rewrite E1. cbn [bind]. rewrite (top_free F D K a (KO a Na Ia)).
        cbn [climb mem existsb]. unfold find_father, dgetM. rewrite (Fn a Ia Na). reflexivity.
    - intros All. destruct Sp as [Sp|(pre & (a & b) & post & Ep & Q & Sp)].
      + destruct (Run edges [] ltac:(rewrite app_nil_r; reflexivity) Sp) as (X & ((ew & e) & f) & K & E' & _). rewrite E'. cbn [bind].
        replace (fatherless father) with true; [reflexivity|]. symmetry. unfold fatherless. apply existsb_exists. exists (v, None). split; [|reflexivity]. apply dget_Some_In, Fn; [exact Hv|]. intros I. apply Nv, HR, I.
      + exfalso. destruct (edges_Ed g ord Hg Ho a b) as (_ & _ & Eab & _); [rewrite Ep; apply in_elt|]. unfold inside in Q. cbn [fst] in Q. destruct (in_dec Z.eq_dec a V) as [|Na]; [discriminate|]. apply Na, HR, (All a b Eab).
  Qed.
End Apart.

(** ** There are finitely many trees *)
Fixpoint subs {A : Type} (l : list A) : list (list A) := match l with [] => [[]] | x :: l => subs l ++ map (cons x) (subs l) end.
Lemma filter_subs {A : Type} (p : A -> bool) l : In (filter p l) (subs l).
Proof. induction l as [|x l IH]; cbn [filter subs]; [left; reflexivity|]. apply in_or_app. destruct (p x); [right; apply in_map, IH|left; exact IH]. Qed.
Lemma subs_length {A : Type} (l : list A) : length (subs l) = (2 ^ length l)%nat.
Proof. induction l as [|x l IH]; [reflexivity|]. cbn [subs length]. rewrite app_length, map_length, IH. cbn. lia. Qed.
Lemma filter_sorted {A : Type} (P : A -> A -> Prop) p l : StronglySorted P l -> StronglySorted P (filter p l).
Proof. induction 1 as [|x l S IH Fx]; cbn [filter]; [constructor|]. destruct (p x); [|exact IH]. constructor; [exact IH|]. rewrite Forall_forall in *. intros y Iy. apply filter_In in Iy as (Iy & _). apply Fx, Iy. Qed.

Lemma tree_subs g W T : undirected g -> tree_of g W T -> In T (subs (sort_pairs (edge_set g))).
Proof.
  intros Hg ((S1 & _) & (O1 & O2) & _). replace T with (filter (fun e => pair_mem e T) (sort_pairs (edge_set g))); [apply filter_subs|]. apply sorted_eq; [apply filter_sorted, sort_pairs_sorted, (C55_edge_set g Hg)|exact O2|]. intros (x & y). rewrite filter_In, pair_mem_In. split; [tauto|]. intros I. split; [|exact I].
  apply (Permutation_in _ (Permutation_sym (sort_pairs_perm _))). apply (C55_edge_set g Hg). split; [specialize (O1 x y I); lia|apply S1, I].
Qed.
Lemma trees_bound g (l : list (Z * list (Z * Z))) : undirected g -> (forall W T, In (W, T) l -> tree_of g W T) -> NoDup (map snd l) -> (length l <= 2 ^ length (edge_set g))%nat.
Proof.
  intros Hg H N. rewrite <- (Permutation_length (sort_pairs_perm (edge_set g))), <- subs_length, <- (map_length snd l). apply NoDup_incl_length; [exact N|]. intros T I. apply in_map_iff in I as ((W & T') & E & I). cbn in E. subst T'. apply (tree_subs g W T Hg (H W T I)).
Qed.
