(** * Farthest insertion follows its rule *)
From Coq Require Import ZArith List Bool Lia Permutation.
From Verif Require NT_Euler.
From Verif Require Import Base Py Sums Dict Lists2 TSP_Model TSP_Spec TSP_Spec2 TSP_Proofs TSP_Proofs2 TSP_Proofs3 TSP_Proofs5 TSP_Proofs6.
Import ListNotations.
Open Scope Z_scope.

Lemma best_by_least {A} (better : A -> A -> bool) (le : A -> A -> Prop) (l : list A) x :
  (forall a, le a a) -> (forall a b c, le a b -> le b c -> le a c) ->
  (forall a b, better a b = true -> le a b) -> (forall a b, better a b = false -> le b a) ->
  best_by better l = Ret x -> forall y, In y l -> le x y.
Proof.
  intros R T B1 B2. destruct l as [|z l]; [discriminate|]. cbn [best_by]. intros [= <-]. revert z.
  induction l as [|w l IH]; intros z y Hy; cbn [fold_left].
  - destruct Hy as [<-|[]]. apply R.
  - destruct (better w z) eqn:E.
    + destruct Hy as [<-|[<-|Hy]].
      * eapply T; [apply (IH w w); left; reflexivity|]. apply B1, E.
      * apply IH. left. reflexivity.
      * apply IH. right. exact Hy.
    + destruct Hy as [<-|[<-|Hy]].
      * apply IH. left. reflexivity.
      * eapply T; [apply (IH z z); left; reflexivity|]. apply B2, E.
      * apply IH. right. exact Hy.
Qed.

Definition wle (a b : option Z) : Prop := wltb b a = false.
Lemma wle_refl a : wle a a.
Proof. destruct a; [apply Z.ltb_irrefl|reflexivity]. Qed.
Lemma wle_trans a b c : wle a b -> wle b c -> wle a c.
Proof. unfold wle, wltb. destruct a, b, c; rewrite ?Z.ltb_ge; try discriminate; auto. intros. lia. Qed.
Lemma wltb_le a b : wltb a b = true -> wle a b.
Proof. unfold wle, wltb. destruct a, b; rewrite ?Z.ltb_ge, ?Z.ltb_lt; try discriminate; auto. lia. Qed.

Lemma ec_least l x : best_by ec_ltb l = Ret x -> forall y, In y l -> wle (fst x) (fst y).
Proof.
  apply (best_by_least ec_ltb (fun a b => wle (fst a) (fst b))).
  - intros a. apply wle_refl.
  - intros a b c. apply wle_trans.
  - intros a b H. unfold ec_ltb in H. apply orb_true_iff in H as [H|H]; [apply wltb_le, H|]. apply andb_true_iff in H as (H & _). apply negb_true_iff, H.
  - intros a b H. unfold ec_ltb in H. apply orb_false_iff in H as (H & _). exact H.
Qed.

Lemma bc_greatest l x : best_by (fun a b => bc_ltb b a) l = Ret x -> forall y, In y l -> wle (fst y) (fst x).
Proof.
  apply (best_by_least (fun a b => bc_ltb b a) (fun a b => wle (fst b) (fst a))).
  - intros a. apply wle_refl.
  - intros a b c H1 H2. eapply wle_trans; eassumption.
  - intros a b H. unfold bc_ltb in H. apply orb_true_iff in H as [H|H]; [apply wltb_le, H|]. apply andb_true_iff in H as (H & _). apply negb_true_iff, H.
  - intros a b H. unfold bc_ltb in H. apply orb_false_iff in H as (H & _). exact H.
Qed.

Lemma chain_place f : forall a b x z, exists t h E, In (t, h) (chain x (a ++ b) z) /\
  Permutation (chain x (a ++ b) z) ((t, h) :: E) /\ Permutation (chain x (a ++ f :: b) z) ((t, f) :: (f, h) :: E).
Proof.
  induction a as [|y a IH]; intros b x z.
  - destruct b as [|y b]; cbn [app chain].
    + exists x, z, []. split; [left; reflexivity|]. split; reflexivity.
    + exists x, y, (chain y b z). split; [left; reflexivity|]. split; reflexivity.
  - cbn [app chain]. destruct (IH b y z) as (t & h & E & I & P1 & P2). exists t, h, ((x, y) :: E). split; [right; exact I|]. split; [rewrite P1; apply perm_swap|].
    rewrite P2. rewrite perm_swap. apply perm_skip, perm_swap.
Qed.

Lemma chain_at f : forall l x z t h, In (t, h) (chain x l z) -> exists a b E, l = a ++ b /\
  Permutation (chain x l z) ((t, h) :: E) /\ Permutation (chain x (a ++ f :: b) z) ((t, f) :: (f, h) :: E).
Proof.
  induction l as [|y l IH]; intros x z t h H; cbn [chain] in H.
  - destruct H as [[= <- <-]|[]]. exists [], [], []. split; [reflexivity|]. split; reflexivity.
  - destruct H as [[= <- <-]|H].
    + exists [], (y :: l), (chain y l z). split; [reflexivity|]. split; reflexivity.
    + destruct (IH y z t h H) as (a & b & E & -> & P1 & P2). exists (y :: a), b, ((x, y) :: E). split; [reflexivity|]. cbn [app chain]. split; [rewrite P1; apply perm_swap|].
      rewrite P2. rewrite perm_swap. apply perm_skip, perm_swap.
Qed.

Section FI.
  Context (n : Z) (d : Z -> Z -> Z) (D : list (list (option Z))).
  Hypothesis HD : distances n d D.

  Definition grow (l : list Z) (f : Z) (e : Z * Z) : Z := d (fst e) f + d f (snd e) - (if match l with [] => true | _ => false end then 0 else d (fst e) (snd e)).

  Lemma grow_cost l l' f t h E : l' <> [] -> Permutation (chain 0 l 0) ((t, h) :: E) -> Permutation (chain 0 l' 0) ((t, f) :: (f, h) :: E) ->
    tour_cost d (0 :: l') = csum d l + grow l f (t, h).
  Proof.
    intros El' P1 P2. unfold grow. cbn [fst snd]. assert (S1 := chain_sum d l 0 0). assert (S2 := chain_sum d l' 0 0).
    rewrite (NT_Euler.zsum_perm _ _ (Permutation_map _ P1)) in S1. rewrite (NT_Euler.zsum_perm _ _ (Permutation_map _ P2)) in S2. cbn [map] in S1, S2. rewrite !zsum_cons in S1. rewrite !zsum_cons in S2.
    unfold csum. destruct l as [|y l].
    - assert (E = []) as ->. { apply Permutation_length in P1. cbn in P1. destruct E; [reflexivity|cbn in P1; lia]. } cbn [map] in S2. change (zsum []) with 0 in S2. unfold tour_cost. change (hd 0 (0 :: l')) with 0. lia.
    - unfold tour_cost. change (hd 0 (0 :: y :: l)) with 0. change (hd 0 (0 :: l')) with 0. lia.
  Qed.

  Lemma dist_step f left0 : 0 <= f < n -> forall l0 dist0, NoDup l0 -> incl l0 left0 -> (forall v, In v left0 -> 0 <= v < n /\ v <> f /\ exists m, dget dist0 v = Some (Some m)) ->
    exists dist', foldM (fun dist x => do a <- dgetM dist x; do b <- entry D f x; Ret (dset dist x (if wltb b a then b else a))) l0 dist0 = Ret dist' /\
      (forall v m, In v left0 -> dget dist0 v = Some (Some m) -> dget dist' v = Some (Some (if in_dec Z.eq_dec v l0 then Z.min m (d f v) else m))).
  Proof using HD.
    intros Hf. induction l0 as [|x l0 IH]; intros dist0 N Hi H0.
    - exists dist0. split; [reflexivity|]. intros v m Hv E. exact E.
    - apply NoDup_cons_iff in N as (Nx & N). assert (Ix : In x left0) by (apply Hi; left; reflexivity). destruct (H0 x Ix) as (Rx & Fx & m & Em).
      cbn [foldM]. unfold dgetM at 1. rewrite Em. cbn [bind]. rewrite (entry_ok n d D HD) by (assumption || congruence). cbn [bind].
      assert (W : (if wltb (Some (d f x)) (Some m) then Some (d f x) else Some m) = Some (Z.min m (d f x))).
      { unfold wltb. destruct (Z.ltb_spec (d f x) m); f_equal; lia. }
      rewrite W. destruct (IH (dset dist0 x (Some (Z.min m (d f x)))) N) as (dist' & E & H).
      + intros z Hz. apply Hi. right. exact Hz.
      + intros v Hv. destruct (H0 v Hv) as (A & B & mv & C). split; [exact A|]. split; [exact B|]. rewrite dget_dset. destruct (Z.eqb_spec x v); eauto.
      + exists dist'. split; [exact E|]. intros v mv Hv Ev. destruct (Z.eq_dec x v) as [->|Nv].
        * rewrite Em in Ev. injection Ev as ->. rewrite (H v (Z.min mv (d f v)) Hv) by apply dget_dset_same.
          destruct (in_dec Z.eq_dec v l0); [contradiction|]. destruct (in_dec Z.eq_dec v (v :: l0)) as [_|F]; [reflexivity|exfalso; apply F; left; reflexivity].
        * rewrite (H v mv Hv) by (rewrite dget_dset_other by congruence; exact Ev).
          destruct (in_dec Z.eq_dec v l0) as [I|I], (in_dec Z.eq_dec v (x :: l0)) as [J|J]; try reflexivity; exfalso; [apply J; right; exact I|destruct J; [congruence|contradiction]].
  Qed.

  Lemma insert_loop_rule : forall fuel left dist edges l, (length left <= fuel)%nat -> Permutation (0 :: l ++ left) (zrange 0 n) ->
    (forall v, In v left -> exists m, dget dist v = Some (Some m) /\ nearest d (0 :: l) v m) -> Permutation edges (chain 0 l 0) -> farthest_first n d (0 :: l) ->
    exists edges' l', insert_loop D fuel left dist edges (Some (csum d l)) = Ret (edges', Some (csum d l')) /\ Permutation (0 :: l') (zrange 0 n) /\ Permutation edges' (chain 0 l' 0) /\ farthest_first n d (0 :: l').
  Proof using HD.
    induction fuel as [|fuel IH]; intros left dist edges l L P Hd Pe FF; (assert (Hl : left = [] \/ left <> []) by (destruct left; intuition discriminate)); (destruct Hl as [->|Hl]; [exists edges, l; cbn [insert_loop]; rewrite app_nil_r in P; auto|]); [destruct left; [congruence|cbn in L; lia]|].
    assert (N : NoDup (0 :: l ++ left)) by (apply (Permutation_NoDup (Permutation_sym P)), zrange_NoDup).
    assert (R : forall x, In x (0 :: l ++ left) -> 0 <= x < n) by (intros x Hx; apply zrange_In, (Permutation_in x P), Hx).
    assert (N0 : NoDup (0 :: l) /\ NoDup left /\ forall x, In x (0 :: l) -> ~ In x left). { change (0 :: l ++ left) with ((0 :: l) ++ left) in N. apply NoDup_app_inv in N. exact N. }
    destruct N0 as (Nl & Nleft & Dj).
    assert (Rl : forall x, In x (0 :: l) -> 0 <= x < n) by (intros x Hx; apply R; change (In x ((0 :: l) ++ left)); apply in_app_iff; left; exact Hx).
    cbn [insert_loop]. match goal with |- context [match left with [] => _ | _ :: _ => ?X end] => replace (match left with [] => Ret (edges, Some (csum d l)) | _ :: _ => X end) with X by (destruct left; [congruence|reflexivity]) end.
    rewrite (mapM_ret _ (fun v => (match dget dist v with Some x => x | None => None end, v))) by (intros v Hv; destruct (Hd v Hv) as (w & E & _); unfold dgetM; rewrite E; reflexivity). cbn [bind].
    destruct (best_by_ok (fun a b => bc_ltb b a) (map (fun v => (match dget dist v with Some x => x | None => None end, v)) left)) as ((w0 & f) & Ef & If). { intros E. apply map_eq_nil in E. contradiction. }
    assert (Far := bc_greatest _ _ Ef).
    rewrite Ef. cbn [bind]. apply in_map_iff in If as (f' & [= Ew0 ->] & If). assert (Hf : 0 <= f < n) by (apply R; right; apply in_app_iff; right; exact If). assert (Nf : ~ In f (0 :: l)) by (intros I; exact (Dj f I If)).
    rewrite (mapM_ret _ (fun e => (Some (grow l f e), e))) by (intros e He; rewrite (insertion_ok n d D HD f l e Hf Nl Rl Nf) by (apply (Permutation_in e Pe), He); reflexivity). cbn [bind].
    destruct (best_by_ok ec_ltb (map (fun e => (Some (grow l f e), e)) edges)) as ((w & (t & h)) & Ew & Iw). { intros E. apply map_eq_nil in E. subst. apply Permutation_nil in Pe. destruct l; discriminate. }
    assert (Near := ec_least _ _ Ew).
    rewrite Ew. cbn [bind]. apply in_map_iff in Iw as (e & [= <- ->] & Ie). assert (Ic := Permutation_in _ Pe Ie). destruct (chain_at f l 0 0 t h Ic) as (a & b & E & Hab & P1 & P2).
    set (l' := a ++ f :: b) in *. assert (P3 : Permutation l' (f :: l)) by (unfold l'; rewrite Hab; symmetry; apply Permutation_middle).
    assert (El' : l' <> []) by (unfold l'; destruct a; discriminate).
    assert (Fe : NoDup edges) by (apply NoDup_of_fst; apply (Permutation_NoDup (Permutation_map fst (Permutation_sym Pe))); rewrite chain_fst; exact Nl).
    assert (Fst : forall u v, In (u, v) edges -> In u (0 :: l)) by (intros u v I; apply (Permutation_in _ Pe), (in_map fst) in I; rewrite chain_fst in I; exact I).
    assert (Snd : forall u v, In (u, v) edges -> In v (0 :: l)) by (intros u v I; apply (Permutation_in _ Pe), (in_map snd) in I; rewrite chain_snd in I; cbn [snd] in I; apply in_app_iff in I; destruct I as [I|[<-|[]]]; [right; exact I|left; reflexivity]).
    assert (Nt : f <> t) by (intros ->; apply Nf, (Fst _ _ Ie)).
    set (left' := filter (fun x => negb (x =? f)) left).
    assert (Il : forall x, In x left' <-> In x left /\ x <> f). { intros x. unfold left'. rewrite filter_In, negb_true_iff, Z.eqb_neq. reflexivity. }
    assert (Nl' : NoDup left') by (apply NoDup_filter, Nleft).
    assert (Pleft : Permutation left (f :: left')). { apply NoDup_Permutation; [exact Nleft|constructor; [rewrite Il; tauto|exact Nl']|]. intros x. cbn [In]. rewrite Il. destruct (Z.eq_dec x f) as [->|]; intuition congruence. }
    destruct (dist_step f left' Hf left' dist Nl') as (dist' & -> & Hd'); [apply incl_refl| |].
    { intros v Hv. apply Il in Hv as (Iv & Nv). split; [apply R; right; apply in_app_iff; right; exact Iv|]. split; [exact Nv|]. destruct (Hd v Iv) as (m & Em & _). eauto. }
    cbn [bind].
    assert (N1 : ~ In (t, f) edges) by (intros I; apply Nf, (Snd _ _ I)). assert (N2 : ~ In (f, h) (edges ++ [(t, f)])) by (rewrite in_app_iff; cbn [In]; intros [I|[[= E1 E2]|[]]]; [apply Nf, (Fst _ _ I)|congruence]).
    rewrite (eadd_new _ _ N1), (eadd_new _ _ N2).
    assert (Cw : csum d l + grow l f (t, h) = csum d l') by (rewrite <- (grow_cost l l' f t h E El' P1 P2); unfold csum; destruct l'; [congruence|reflexivity]).
    change (wadd (Some (csum d l)) (Some (grow l f (t, h)))) with (Some (csum d l + grow l f (t, h))). rewrite Cw. apply IH.
    - apply Permutation_length in Pleft. cbn [length] in Pleft. lia.
    - rewrite <- P. constructor. rewrite P3, Pleft. cbn [app]. apply Permutation_middle.
    - intros v Hv. destruct (Hd v) as (m & Em & (s & Is & Es) & Min); [apply Il in Hv; apply Hv|]. exists (Z.min m (d f v)). split.
      + rewrite (Hd' v m Hv Em). destruct (in_dec Z.eq_dec v left'); [reflexivity|contradiction].
      + assert (In' : forall x, In x (0 :: l') <-> x = f \/ In x (0 :: l)).
        { intros x. cbn [In]. split; [intros [->|I]; [auto|apply (Permutation_in x P3) in I; destruct I; auto]|intros [->|[->|I]]; [right|auto|right]; apply (Permutation_in _ (Permutation_sym P3)); [left; reflexivity|right; exact I]]. }
        split.
        * destruct (Z.le_gt_cases m (d f v)); [exists s; split; [apply In'; auto|lia]|exists f; split; [apply In'; auto|lia]].
        * intros x Hx. apply In' in Hx as [->|Hx]; [lia|]. specialize (Min x Hx). lia.
    - rewrite P2. apply ediscard_perm.
      + apply NoDup_app_intro; [apply NoDup_app_intro; [exact Fe|constructor; [intros []|constructor]|intros x Hx [<-|[]]; contradiction]|constructor; [intros []|constructor]|intros x Hx [<-|[]]; contradiction].
      + rewrite <- app_assoc. cbn [app]. rewrite Pe, P1. cbn [app]. constructor. apply (Permutation_app_comm E [(t, f); (f, h)]).
    - assert (H0l : (0 :: a) ++ b = 0 :: l) by (cbn [app]; rewrite Hab; reflexivity).
      change (0 :: l') with ((0 :: a) ++ f :: b). apply ff_insert; rewrite ?H0l; [exact FF|discriminate|exact Hf|exact Nf| |].
      + intros v m k Rv Nv (( s & Is & Es) & Mv) ((s' & Is' & Es') & Mf).
        assert (Iv : In v left). { assert (X : In v (0 :: l ++ left)) by (apply (Permutation_in v (Permutation_sym P)), zrange_In, Rv). change (In v ((0 :: l) ++ left)) in X. apply in_app_iff in X as [X|X]; [contradiction|exact X]. }
        destruct (Hd v Iv) as (m1 & Em1 & (s1 & Is1 & Es1) & M1). destruct (Hd f If) as (k1 & Ek1 & (s2 & Is2 & Es2) & M2).
        assert (F := Far (Some m1, v)). rewrite Ek1 in Ew0. subst w0. specialize (F ltac:(apply in_map_iff; exists v; rewrite Em1; auto)). unfold wle, wltb in F. cbn [fst] in F. apply Z.ltb_ge in F.
        assert (m <= m1) by (rewrite <- Es1; apply Mv, Is1). assert (k1 <= k) by (rewrite <- Es'; apply M2, Is'). lia.
      + intros a' b' Eab Na'. destruct a' as [|z a']; [congruence|]. cbn [app] in Eab. injection Eab as -> Eab.
        destruct (chain_place f a' b' 0 0) as (t' & h' & E' & I' & Q1 & Q2). rewrite Eab in I', Q1.
        cbn [app]. rewrite (grow_cost l (a' ++ f :: b') f t' h' E') by (destruct a'; discriminate || assumption).
        rewrite (grow_cost l (a ++ f :: b) f t h E El' P1 P2).
        assert (F := Near (Some (grow l f (t', h')), (t', h'))). specialize (F ltac:(apply in_map_iff; exists (t', h'); split; [reflexivity|apply (Permutation_in _ (Permutation_sym Pe)), I'])).
        unfold wle, wltb in F. cbn [fst] in F. apply Z.ltb_ge in F. lia.
  Qed.

  Lemma insertion_edges_rule : 1 <= n -> exists edges l, insertion_edges D n = Ret (edges, Some (csum d l)) /\ tour n (0 :: l) /\ Permutation edges (chain 0 l 0) /\ farthest_first n d (0 :: l).
  Proof using HD.
    intros Hn. unfold insertion_edges. cbv zeta.
    assert (Dst : forall l0 dist0, incl l0 (zrange 1 n) -> exists dist', foldM (fun dist v => do w <- entry D 0 v; Ret (dset dist v w)) l0 dist0 = Ret dist' /\
      (forall v, In v l0 \/ dget dist0 v = Some (Some (d 0 v)) -> dget dist' v = Some (Some (d 0 v)))).
    { induction l0 as [|x l0 IH]; intros dist0 Hi; [exists dist0; split; [reflexivity|intros v [[]|H]; exact H]|]. cbn [foldM]. assert (Ix : In x (zrange 1 n)) by (apply Hi; left; reflexivity). apply zrange_In in Ix.
      rewrite (entry_ok n d D HD) by lia. cbn [bind]. destruct (IH (dset dist0 x (Some (d 0 x)))) as (dist' & E & H); [intros z Hz; apply Hi; right; exact Hz|]. exists dist'. split; [exact E|]. intros v Hv. apply H.
      rewrite dget_dset. destruct (Z.eqb_spec x v) as [->|Nx]; [right; reflexivity|]. destruct Hv as [[Ex|I]|Ev]; [congruence|left; exact I|right; exact Ev]. }
    destruct (Dst (zrange 1 n) []) as (dist & -> & Hd); [apply incl_refl|]. cbn [bind]. destruct (insert_loop_rule (Z.to_nat n) (zrange 1 n) dist [(0, 0)] []) as (edges & l & E & P & Pe & FF).
    - rewrite zrange_length. lia.
    - cbn [app]. rewrite (zrange_cons 0 n) by lia. reflexivity.
    - intros v Hv. exists (d 0 v). split; [apply Hd; left; exact Hv|]. split; [exists 0; split; [left; reflexivity|reflexivity]|]. intros s [<-|[]]. lia.
    - reflexivity.
    - constructor.
    - exists edges, l. split; [exact E|]. split; [exact P|]. split; [exact Pe|exact FF].
  Qed.

  Lemma farthest_insertion_rule : 1 <= n -> exists l, farthest_insertion D n = Ret (Some (csum d l), 0 :: l) /\ tour n (0 :: l) /\ farthest_first n d (0 :: l).
  Proof using HD.
    intros Hn. destruct (farthest_insertion_ok n d D HD Hn) as (l & E & T). exists l. split; [exact E|]. split; [exact T|].
    destruct (insertion_edges_rule Hn) as (edges & l' & E' & T' & Pe & FF).
    assert (X : l' = l); [|rewrite <- X; exact FF].
    unfold farthest_insertion in E. rewrite E' in E. cbn [bind] in E.
    destruct (tour_facts n _ T') as (N & R & L). apply NoDup_cons_iff in N as (N0 & Nl).
    set (next := fold_left (fun d '(u, v) => dset d u v) edges []) in E.
    assert (Hnext : forall u v, In (u, v) (chain 0 l' 0) -> dget next u = Some v).
    { intros u v I. apply dict_get; [|apply (Permutation_in _ (Permutation_sym Pe)), I]. apply (Permutation_NoDup (Permutation_map fst (Permutation_sym Pe))). rewrite chain_fst. constructor; assumption. }
    assert (H0 : dget next 0 = Some (hd 0 l')) by (apply Hnext; destruct l'; left; reflexivity). unfold dgetM in E. rewrite H0 in E. cbn [bind] in E.
    rewrite (follow_ok next l' 0) in E; [cbn [bind app] in E; congruence|exact Hnext|exact N0|]. cbn [length] in L. lia.
  Qed.
End FI.
