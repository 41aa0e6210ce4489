(** * Proofs about [maxis] *)
From Coq Require Import ZArith List Lia Bool Permutation.
From Verif Require Import Base Py Dict Lists Lists2 Graph_Model Graph_Spec Graph_Proofs Graph_Proofs2 Trav_Model Color_Model Color_Spec Color_Proofs Color_Props
  MaxCliq_Model Kor_Model Kor_Proofs Kor_Proofs2 Kor_Proofs3 Kor_Props Indep_Model Indep_Spec Indep_Props Maxis_Spec Maxis_Model.
Import ListNotations.
Open Scope Z_scope.

Lemma left_over_nil g : undirected g -> loop_free g -> left_over g [] g.
Proof. intros Hg Hl. constructor; [exact Hg|exact Hl|apply Permutation_refl|reflexivity|intros c []]. Qed.

Lemma lo_vertex g L h x : left_over g L h -> vertex h x -> vertex g x.
Proof. intros H V. apply (Permutation_in _ (lo_perm _ _ _ H)), in_app_iff. right. exact V. Qed.

Lemma lo_indep g L h c : left_over g L h -> independent_set h c -> independent_set g c.
Proof.
  intros H (N & V & E). split; [exact N|]. split; [intros u Hu; apply (lo_vertex g L h u H), V, Hu|]. intros u v Hu Hv (w & Ew). apply (E u v Hu Hv). exists w.
  rewrite (lo_weight _ _ _ H) by (apply V; assumption). exact Ew.
Qed.

Lemma lo_step g L h c : left_over g L h -> independent_set h c -> c <> [] -> left_over g (L ++ [c]) (delete_vertices h c).
Proof.
  intros H I Ne. pose proof I as (N & V & E). destruct (delete_vertices_ok c h (lo_und _ _ _ H)) as (U & B & W). constructor.
  - exact U.
  - intros u. destruct (in_dec Z.eq_dec u c) as [J|J]; [apply (proj1 (W u u)); left; exact J|rewrite (proj2 (W u u) J J); apply (lo_free _ _ _ H)].
  - rewrite <- (lo_perm _ _ _ H). rewrite concat_app. cbn [concat]. rewrite app_nil_r, <- app_assoc. apply Permutation_app_head.
    apply NoDup_same_perm.
    + apply NoDup_app_intro; [exact N|apply U|]. intros x Hx Hx'. apply B in Hx'. tauto.
    + apply (lo_und _ _ _ H).
    + intros x. rewrite in_app_iff. fold (vertex (delete_vertices h c) x). rewrite B. fold (vertex h x). destruct (in_dec Z.eq_dec x c) as [J|J]; [pose proof (V x J)|]; tauto.
  - intros x y Hx Hy. apply B in Hx, Hy. rewrite (proj2 (W x y)) by tauto. apply (lo_weight _ _ _ H); tauto.
  - intros d Hd. apply in_app_iff in Hd. destruct Hd as [Hd|[<-|[]]]; [apply (lo_class _ _ _ H), Hd|]. split; [exact Ne|]. exact (proj2 (proj2 (lo_indep _ _ _ _ H I))).
Qed.

Lemma lo_length g L h c : left_over g L h -> independent_set h c -> length (delete_vertices h c) = (length h - length c)%nat /\ (length c <= length h)%nat.
Proof.
  intros H I. destruct (in_dec (list_eq_dec Z.eq_dec) [] [c]) as [[J|[]]|J].
  - subst c. cbn. split; lia.
  - assert (Ne : c <> []) by (intros ->; apply J; left; reflexivity). pose proof (lo_perm _ _ _ (lo_step g L h c H I Ne)) as P. rewrite <- (lo_perm _ _ _ H) in P.
    apply Permutation_length in P. rewrite concat_app in P. cbn [concat] in P. rewrite !app_length, !map_length in P. cbn [length] in P. lia.
Qed.

Section Run.
  Context (color_limit mis_limit : Z) (use_greedy : bool).
  Context (pick : list (list Z) -> list Z -> list Z -> Z) (ord : list (list Z) -> list Z -> list Z).
  Context (Hc : 0 <= color_limit) (Hpick : forall d s l, l <> [] -> In (pick d s l) l) (Hord : forall d l, Permutation (ord d l) l).
  Context (g : graph) (Hm : use_greedy = true \/ forall c, independent_set g c -> Z.of_nat (length c) <= mis_limit).

  Lemma set_ok L h : left_over g L h -> color_limit < Z.of_nat (length h) ->
    exists c, maxis_set mis_limit use_greedy pick ord L h (Z.of_nat (length h)) = Ret (Z.of_nat (length c), c) /\ independent_set h c /\ c <> [].
  Proof using Hc Hpick Hord Hm.
    intros H N. unfold maxis_set. pose proof (lo_und _ _ _ H) as U. pose proof (lo_free _ _ _ H) as F.
    assert (Ne : exists x, vertex h x) by (destruct h as [|(x, a) h']; [cbn in N; lia|exists x; left; reflexivity]). destruct Ne as (x & Vx).
    assert (Sx : independent_set h [x]).
    { split; [constructor; [intros []|constructor]|]. split; [intros u [<-|[]]; exact Vx|]. intros u v [<-|[]] [<-|[]] (w & E). rewrite F in E. discriminate. }
    destruct (Z.ltb_spec mis_limit (Z.of_nat (length h))) as [M|M].
    - destruct use_greedy eqn:G.
      + destruct (C68_greedy (pick L) (ord L) h (Hpick L) (Hord L) U F) as (c & E & (I & Mx) & _). exists c. split; [exact E|]. split; [exact I|]. intros ->.
        destruct (Mx x Vx (fun K => K)) as (u & [] & _).
      + destruct Hm as [K|K]; [discriminate|]. destruct (C68_culberson (ord L) h (Hord L) U F) as (c & E & I & _ & Q). exists c. split; [exact E|]. split; [exact I|].
        destruct c as [|y c]; [|discriminate]. exfalso.
        assert (A : independent_set h (map fst h)).
        { split; [apply U|]. split; [intros u Hu; exact Hu|]. intros u v Hu Hv Euv. apply Q; [exists u, v; exact Euv|reflexivity]. }
        apply (lo_indep _ _ _ _ H), K in A. rewrite map_length in A. lia.
    - destruct (C68_branch_and_bound h U F) as (size & c & E & I & Es & Mx). exists c. rewrite E, Es. split; [reflexivity|]. split; [exact I|]. intros ->. specialize (Mx [x] Sx). cbn in Mx, Es. lia.
  Qed.

  Lemma loop_ok fuel : forall L h, left_over g L h -> (length h <= fuel)%nat ->
    exists L' h', maxis_loop color_limit mis_limit use_greedy pick ord fuel h (Z.of_nat (length h)) L = Ret (h', Z.of_nat (length h'), L') /\ left_over g L' h' /\
      Z.of_nat (length h') <= color_limit /\ (Z.of_nat (length h) <= color_limit -> L' = L /\ h' = h).
  Proof using Hc Hpick Hord Hm.
    induction fuel as [|f IH]; intros L h H Lf; cbn [maxis_loop]; destruct (Z.ltb_spec color_limit (Z.of_nat (length h))) as [N|N]; [lia| | |].
    - exists L, h. auto.
    - destruct (set_ok L h H N) as (c & E & I & Ne). rewrite E. cbn [bind]. destruct (lo_length g L h c H I) as (L1 & L2). assert (L3 : (1 <= length c)%nat) by (destruct c; [congruence|cbn; lia]).
      destruct (IH (L ++ [c]) (delete_vertices h c) (lo_step g L h c H I Ne) ltac:(lia)) as (L' & h' & E' & H' & B' & _). exists L', h'. split; [|split; [exact H'|split; [exact B'|lia]]].
      rewrite <- E'. f_equal. lia.
    - exists L, h. auto.
  Qed.
End Run.

(** ** The result *)
Lemma class_map (k : Z) cl : forall cm0, NoDup (dkeys cm0) -> let cm := fold_left (fun cm u => dset cm u k) cl cm0 in
  NoDup (dkeys cm) /\ forall x, dget cm x = if in_dec Z.eq_dec x cl then Some k else dget cm0 x.
Proof.
  induction cl as [|u cl IH]; intros cm0 N; cbn [fold_left]; [split; [exact N|reflexivity]|].
  destruct (IH (dset cm0 u k) (dset_NoDup _ _ _ N)) as (A & B). split; [exact A|]. intros x. rewrite B. rewrite dget_dset.
  destruct (in_dec Z.eq_dec x cl) as [I|I], (in_dec Z.eq_dec x (u :: cl)) as [J|J]; try reflexivity.
  - exfalso. apply J. right. exact I.
  - destruct J as [->|J]; [rewrite Z.eqb_refl; reflexivity|contradiction].
  - destruct (Z.eqb_spec u x) as [->|]; [exfalso; apply J; left; reflexivity|reflexivity].
Qed.

Definition put_all (cm : list (Z * Z)) (p : Z * list Z) : list (Z * Z) := let '(i, cl) := p in fold_left (fun cm u => dset cm u i) cl cm.

Lemma enum_map : forall (L : list (list Z)) k cm0, NoDup (concat L) -> NoDup (dkeys cm0) -> (forall x, In x (dkeys cm0) -> ~ In x (concat L)) ->
  let cm := fold_left put_all (combine (zrange k (k + Z.of_nat (length L))) L) cm0 in
  NoDup (dkeys cm) /\ forall x c, dget cm x = Some c <-> dget cm0 x = Some c \/ exists i, (i < length L)%nat /\ c = k + Z.of_nat i /\ In x (nth i L []).
Proof.
  induction L as [|cl L IH]; intros k cm0 N N0 D; cbn [length].
  - rewrite zrange_nil by lia. cbn [combine fold_left]. split; [exact N0|]. intros x c. split; [auto|]. intros [H|(i & Hi & _)]; [exact H|lia].
  - rewrite zrange_cons by lia. cbn [combine fold_left put_all concat] in *. destruct (class_map k cl cm0 N0) as (A & B). cbv zeta in A, B. set (cm1 := fold_left _ cl cm0) in *.
    destruct (NoDup_app_inv _ _ N) as (Nc & NL & Dc).
    assert (K1 : forall x, In x (dkeys cm1) -> ~ In x (concat L)).
    { intros x Hx Hx'. apply dget_key in Hx as (c & Ex). rewrite B in Ex. destruct (in_dec Z.eq_dec x cl) as [I|I]; [apply (Dc x I Hx')|].
      apply (D x); [|apply in_app_iff; right; exact Hx']. apply dget_Some_In in Ex. apply in_map_iff. exists (x, c). split; [reflexivity|exact Ex]. }
    destruct (IH (k + 1) cm1 NL A K1) as (A' & B'). replace (k + 1 + Z.of_nat (length L)) with (k + Z.of_nat (S (length L))) in A', B' by lia. split; [exact A'|].
    intros x c. rewrite B', B. split.
    + intros [H|(i & Hi & -> & Ix)]; [|right; exists (S i); split; [lia|]; split; [lia|exact Ix]].
      destruct (in_dec Z.eq_dec x cl) as [I|I]; [|left; exact H]. injection H as <-. right. exists 0%nat. split; [lia|]. split; [lia|exact I].
    + intros [H|(i & Hi & -> & Ix)].
      * destruct (in_dec Z.eq_dec x cl) as [I|I]; [|left; exact H]. exfalso. apply (D x); [|apply in_app_iff; left; exact I]. apply dget_Some_In in H. apply in_map_iff. exists (x, c). split; [reflexivity|exact H].
      * destruct i as [|i].
        -- cbn in Ix. left. destruct (in_dec Z.eq_dec x cl); [f_equal; lia|contradiction].
        -- right. exists i. split; [lia|]. split; [lia|exact Ix].
Qed.

Lemma class_result g k L classes : undirected g -> proper_classes g k L -> exists c, maxis_result classes k L = Ret (k, c) /\ good_colouring g 0 k classes c.
Proof.
  intros Hg (Lk & P & C). unfold maxis_result. destruct classes; eexists; (split; [reflexivity|]); (split; [reflexivity|]); [split; [exact Lk|split; [exact P|exact C]]|].
  change (fun cm '(i, cl) => fold_left (fun cm u => dset cm u i) cl cm) with put_all.
  assert (N : NoDup (concat L)) by (apply (Permutation_NoDup (Permutation_sym P)), Hg).
  destruct (enum_map L 0 [] N ltac:(constructor) ltac:(intros x [])) as (A & B). cbv zeta in A, B. rewrite Z.add_0_l in A, B. set (cm := fold_left _ _ _) in *.
  assert (In_cm : forall x c, In (x, c) cm <-> exists i, (i < length L)%nat /\ c = Z.of_nat i /\ In x (nth i L [])).
  { intros x c. split.
    - intros H. apply (dget_In cm x c A) in H. apply B in H. destruct H as [H|H]; [discriminate|exact H].
    - intros H. apply dget_Some_In, B. right. exact H. }
  split; [exact A|]. split; [|split].
  - intros v. split.
    + intros V. apply (Permutation_in _ (Permutation_sym P)), in_concat in V. destruct V as (cl & Icl & Iv). apply (In_nth _ _ []) in Icl as (i & Hi & <-).
      apply in_map_iff. exists (v, Z.of_nat i). split; [reflexivity|]. apply In_cm. exists i. auto.
    + intros V. apply in_map_iff in V. destruct V as ((x, c) & <- & I). apply In_cm in I. destruct I as (i & Hi & -> & Ix). apply (Permutation_in _ P), in_concat. exists (nth i L []). split; [apply nth_In, Hi|exact Ix].
  - intros c. split.
    + intros (v & I). apply In_cm in I. destruct I as (i & Hi & -> & _). lia.
    + intros Hc. destruct (C (nth (Z.to_nat c) L [])) as (Ne & _); [apply nth_In; lia|]. destruct (nth (Z.to_nat c) L []) as [|x cl] eqn:E; [congruence|]. exists x. apply In_cm. exists (Z.to_nat c). rewrite E. split; [lia|]. split; [lia|left; reflexivity].
  - intros u v c d Iu Iv Euv <-. apply In_cm in Iu, Iv. destruct Iu as (i & Hi & -> & Ix), Iv as (j & Hj & Ej & Jx). assert (j = i) as -> by lia.
    destruct (C (nth i L [])) as (_ & Q); [apply nth_In, Hi|]. apply (Q u v Ix Jx Euv).
Qed.

(** Classes of the removed vertices and of the rest. *)
Lemma join_classes g L h k L' : left_over g L h -> proper_classes h k L' -> proper_classes g (Z.of_nat (length L) + k) (L ++ L').
Proof.
  intros H (Lk & P & C). split; [rewrite app_length; lia|]. split.
  - rewrite concat_app, P. apply (lo_perm _ _ _ H).
  - intros c Ic. apply in_app_iff in Ic. destruct Ic as [Ic|Ic]; [apply (lo_class _ _ _ H), Ic|]. destruct (C c Ic) as (Ne & Q). split; [exact Ne|].
    assert (V : forall u, In u c -> vertex h u) by (intros u Hu; apply (Permutation_in _ P), in_concat; exists c; auto).
    intros u v Hu Hv (w & E). apply (Q u v Hu Hv). exists w. rewrite (lo_weight _ _ _ H) by (apply V; assumption). exact E.
Qed.

Lemma empty_classes g L : left_over g L [] -> proper_classes g (Z.of_nat (length L)) L.
Proof.
  intros H. split; [reflexivity|]. split; [rewrite <- (lo_perm _ _ _ H); cbn [map]; rewrite app_nil_r; reflexivity|]. apply (lo_class _ _ _ H).
Qed.

Lemma classes_colourable g k L : undirected g -> proper_classes g k L -> colourable g k.
Proof.
  intros Hg H. destruct (class_result g k L false Hg H) as ([L'|cm] & _ & E & PM); [discriminate|]. destruct (initial_coloured g cm k PM) as (_ & R & X). eexists. split; [exact R|exact X].
Qed.
