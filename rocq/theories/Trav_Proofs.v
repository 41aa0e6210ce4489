(** * Breadth-first search *)
From Coq Require Import ZArith List Lia Bool Permutation Sorting.Sorted.
From Verif Require Import Base Py Dict Lists2 Gen Graph_Model Graph_Spec Graph_Proofs Trav_Model Trav_Spec.
Import ListNotations.
Open Scope Z_scope.

Lemma mem_In x l : mem x l = true <-> In x l.
Proof.
  unfold mem. rewrite existsb_exists. split.
  - intros (y & Hy & E). apply Z.eqb_eq in E. subst. exact Hy.
  - intros H. exists x. split; [exact H|apply Z.eqb_refl].
Qed.

Lemma mem_false x l : mem x l = false <-> ~ In x l.
Proof. rewrite <- mem_In. destruct (mem x l); split; intros; congruence. Qed.

Definition ltM (M : option Z) (d : nat) : Prop := match M with None => True | Some m => Z.of_nat d < m end.
Definition leM (M : option Z) (d : nat) : Prop := match M with None => True | Some m => Z.of_nat d <= m end.

Lemma deeper_ltM M d : deeper M (Z.of_nat d) = true <-> ltM M d.
Proof. destruct M as [m|]; cbn; [apply Z.ltb_lt|tauto]. Qed.

Definition new (visited : list Z) (vs : list Z) := filter (fun v => negb (mem v visited)) vs.

Lemma new_In visited vs v : In v (new visited vs) <-> In v vs /\ ~ In v visited.
Proof. unfold new. rewrite filter_In, negb_true_iff, mem_false. tauto. Qed.

Lemma new_snoc visited w vs : ~ In w vs -> new (visited ++ [w]) vs = new visited vs.
Proof.
  intros H. unfold new. apply filter_ext_in. intros v Hv. f_equal.
  destruct (mem v visited) eqn:E.
  - apply mem_In. apply in_or_app. left. apply mem_In. exact E.
  - apply mem_false. rewrite in_app_iff. apply mem_false in E. intros [H1|[<-|[]]]; auto.
Qed.

Lemma new_cons visited v vs : new visited (v :: vs) = if mem v visited then new visited vs else v :: new visited vs.
Proof. unfold new. cbn [filter]. destruct (mem v visited); reflexivity. Qed.

Lemma bfs_scan_eq depth : forall vs q vis, NoDup vs ->
  bfs_scan vs depth q vis = (q ++ map (fun v => (v, depth + 1)) (new vis vs), vis ++ new vis vs, new vis vs).
Proof.
  induction vs as [|v vs IH]; intros q vis H.
  - cbn. rewrite !app_nil_r. reflexivity.
  - inversion_clear H as [|? ? H0 H1]. cbn [bfs_scan]. rewrite new_cons. destruct (mem v vis).
    + apply IH. exact H1.
    + rewrite IH by exact H1. rewrite new_snoc by exact H0. cbn [map].
      rewrite <- !app_assoc. reflexivity.
Qed.

Lemma dmem_mem {V} (d : list (Z * V)) v : dmem d v = mem v (dkeys d).
Proof. apply eq_true_iff_eq. rewrite dmem_In, mem_In. reflexivity. Qed.

Lemma dset_new {V} (d : list (Z * V)) k v : ~ In k (dkeys d) -> dset d k v = d ++ [(k, v)].
Proof.
  induction d as [|[k' v'] d IH]; cbn; intros H; [reflexivity|].
  destruct (k' =? k) eqn:E; [apply Z.eqb_eq in E; tauto|]. rewrite IH by tauto. reflexivity.
Qed.

Lemma dkeys_app {V} (a b : list (Z * V)) : dkeys (a ++ b) = dkeys a ++ dkeys b.
Proof. unfold dkeys. apply map_app. Qed.

Lemma bfst_scan_eq u : forall vs q prev, NoDup vs ->
  bfst_scan vs u q prev = (q ++ new (dkeys prev) vs, prev ++ map (fun v => (v, Some u)) (new (dkeys prev) vs)).
Proof.
  induction vs as [|v vs IH]; intros q prev H.
  - cbn. rewrite !app_nil_r. reflexivity.
  - inversion_clear H as [|? ? H0 H1]. cbn [bfst_scan]. rewrite new_cons, dmem_mem. destruct (mem v (dkeys prev)) eqn:E.
    + apply IH. exact H1.
    + rewrite IH by exact H1. apply mem_false in E. rewrite dset_new by exact E. rewrite dkeys_app. cbn [dkeys map fst].
      rewrite new_snoc by exact H0. rewrite <- !app_assoc. reflexivity.
Qed.

Section BFS.
  Context (g : graph) (s : Z).
  Hypothesis Hg : undirected g.
  Hypothesis Hs : vertex g s.

  Lemma adj_row u : vertex g u -> exists a, dget g u = Some a /\ NoDup (dkeys a) /\ forall v, In v (dkeys a) <-> edge g u v.
  Proof.
    intros H. apply vertex_dget in H. destruct H as [a E]. exists a. split; [exact E|]. split.
    - destruct Hg as (_ & Hn & _). apply (Hn u). apply dget_Some_In. exact E.
    - intros v. unfold edge, weight. rewrite E. split.
      + intros H. apply dget_key in H. exact H.
      + intros [w H]. apply dget_Some_In in H. apply in_map_iff. exists (v, w). auto.
  Qed.

  Record inv (M : option Z) (P Q : list (Z * nat)) : Prop := {
    i_nd : NoDup (map fst (P ++ Q));
    i_hd : exists r, P ++ Q = (s, O) :: r;
    i_so : StronglySorted (fun x y => (snd x <= snd y)%nat) (P ++ Q);
    i_q : forall x y, In x Q -> In y Q -> (snd y <= snd x + 1)%nat;
    i_w : forall v d, In (v, d) (P ++ Q) -> walk g s d v /\ vertex g v /\ (v = s \/ leM M d);
    i_c : forall u d v, In (u, d) P -> ltM M d -> edge g u v -> exists d', In (v, d') (P ++ Q) /\ (d' <= S d)%nat }.

  Lemma inv_init M : inv M [] [(s, O)].
  Proof.
    constructor; cbn.
    - repeat constructor. intros [].
    - eauto.
    - repeat constructor.
    - intros x y [<-|[]] [<-|[]]. cbn. lia.
    - intros v d [E|[]]. injection E as <- <-. split; [constructor|]. split; [exact Hs|]. auto.
    - intros u d v [].
  Qed.

  Lemma ss_app {A} (R : A -> A -> Prop) : forall a b, StronglySorted R (a ++ b) <->
    StronglySorted R a /\ StronglySorted R b /\ forall x y, In x a -> In y b -> R x y.
  Proof.
    induction a as [|x a IH]; intros b; cbn.
    - split; [intros H; split; [constructor|split; [exact H|intros ? ? []]]|tauto].
    - split.
      + intros H. inversion_clear H as [|? ? H0 H1]. apply IH in H0. destruct H0 as (A1 & A2 & A3).
        rewrite Forall_forall in H1. split.
        * constructor; [exact A1|]. apply Forall_forall. intros y Hy. apply H1. apply in_or_app. auto.
        * split; [exact A2|]. intros y z [<-|Hy] Hz; [apply H1; apply in_or_app; auto|auto].
      + intros (H & H2 & H3). inversion_clear H as [|? ? H0 H1]. constructor.
        * apply IH. split; [exact H0|]. split; [exact H2|]. auto.
        * rewrite Forall_forall in *. intros y Hy. apply in_app_iff in Hy. destruct Hy; auto.
  Qed.

  (** popping an entry that is not expanded *)
  Lemma inv_skip M P u d Q : inv M P ((u, d) :: Q) -> ~ ltM M d -> inv M (P ++ [(u, d)]) Q.
  Proof.
    intros [H1 H2 H3 H4 H5 H6] Hd.
    assert (E : (P ++ [(u, d)]) ++ Q = P ++ (u, d) :: Q) by (rewrite <- app_assoc; reflexivity).
    constructor; rewrite ?E; auto.
    - intros x y Hx Hy. apply H4; right; assumption.
    - intros u' d' v Hin. apply in_app_iff in Hin. destruct Hin as [Hin|[Ex|[]]]; [eauto|].
      injection Ex as <- <-. tauto.
  Qed.

  (** popping an entry and adding its new neighbours *)
  Lemma inv_step M P u d Q a : inv M P ((u, d) :: Q) -> ltM M d -> NoDup a -> (forall v, In v a <-> edge g u v) ->
    inv M (P ++ [(u, d)]) (Q ++ map (fun v => (v, S d)) (new (map fst (P ++ (u, d) :: Q)) a)).
  Proof.
    intros [H1 H2 H3 H4 H5 H6] Hd Ha He. set (N := new (map fst (P ++ (u, d) :: Q)) a).
    assert (E : forall N, (P ++ [(u, d)]) ++ Q ++ N = (P ++ (u, d) :: Q) ++ N).
    { intros. rewrite <- !app_assoc. reflexivity. }
    assert (Hud : In (u, d) (P ++ (u, d) :: Q)) by (apply in_or_app; right; left; reflexivity).
    assert (HQ : forall x, In x Q -> (d <= snd x <= d + 1)%nat).
    { intros x Hx. split.
      - apply ss_app in H3. destruct H3 as (_ & H3 & _). inversion_clear H3 as [|? ? _ Hf].
        rewrite Forall_forall in Hf. apply (Hf x Hx).
      - apply (H4 (u, d) x); [left; reflexivity|right; exact Hx]. }
    assert (HP : forall x, In x P -> (snd x <= d)%nat).
    { intros x Hx. apply ss_app in H3. destruct H3 as (_ & _ & H3). apply (H3 x (u, d)); [exact Hx|left; reflexivity]. }
    constructor; rewrite ?E.
    - rewrite map_app, map_map, map_id. apply NoDup_app_intro; [exact H1|apply NoDup_filter; exact Ha|].
      intros v Hv Hn. apply new_In in Hn. tauto.
    - destruct H2 as [r ->]. cbn. eauto.
    - apply ss_app. split; [exact H3|]. split.
      + clear. induction N; cbn; constructor; [assumption|]. apply Forall_forall. intros x Hx.
        apply in_map_iff in Hx. destruct Hx as (? & <- & _). cbn. lia.
      + intros x y Hx Hy. apply in_map_iff in Hy. destruct Hy as (v & <- & _). cbn [snd].
        apply in_app_iff in Hx. destruct Hx as [Hx|[<-|Hx]]; [apply HP in Hx; lia|cbn; lia|apply HQ in Hx; lia].
    - intros x y Hx Hy. apply in_app_iff in Hx. apply in_app_iff in Hy.
      assert (A : forall x, In x Q \/ In x (map (fun v => (v, S d)) N) -> (d <= snd x <= d + 1)%nat).
      { intros z [Hz|Hz]; [apply HQ; exact Hz|]. apply in_map_iff in Hz. destruct Hz as (v & <- & _). cbn. lia. }
      apply A in Hx. apply A in Hy. lia.
    - intros v d' Hv. apply in_app_iff in Hv. destruct Hv as [Hv|Hv]; [auto|].
      apply in_map_iff in Hv. destruct Hv as (v' & Ev & Hv). injection Ev as <- <-.
      apply new_In in Hv. destruct Hv as [Hv _]. apply He in Hv.
      destruct (H5 u d Hud) as (W & Vu & _). split; [apply walk_S with u; assumption|]. split.
      + destruct Hg as (_ & _ & Hv' & _). apply (Hv' u). exact Hv.
      + right. destruct M as [m|]; cbn in *; [lia|exact I].
    - intros u' d' v Hin Hlt Hev. apply in_app_iff in Hin. destruct Hin as [Hin|[Ex|[]]].
      + destruct (H6 u' d' v Hin Hlt Hev) as (d2 & A & B). exists d2. split; [apply in_or_app; left; exact A|exact B].
      + injection Ex as <- <-. destruct (in_dec Z.eq_dec v (map fst (P ++ (u, d) :: Q))) as [Hv|Hv].
        * apply in_map_iff in Hv. destruct Hv as ([v' d2] & E2 & Hv). cbn in E2. subst v'.
          exists d2. split; [apply in_or_app; left; exact Hv|].
          apply in_app_iff in Hv. destruct Hv as [Hv|[Ev|Hv]].
          -- apply HP in Hv. cbn in Hv. lia.
          -- injection Ev as _ <-. lia.
          -- apply HQ in Hv. cbn in Hv. lia.
        * exists (S d). split; [|lia]. apply in_or_app. right. apply in_map_iff. exists v. split; [reflexivity|].
          apply new_In. split; [apply He; exact Hev|exact Hv].
  Qed.

  Lemma inv_length M P Q : inv M P Q -> (length (P ++ Q) <= length g)%nat.
  Proof.
    intros [H1 _ _ _ H5 _]. rewrite <- (map_length fst (P ++ Q)), <- (map_length fst g).
    apply NoDup_incl_length; [exact H1|]. intros v Hv. apply in_map_iff in Hv.
    destruct Hv as ([v' d] & E & Hv). cbn in E. subst. apply (H5 v d). exact Hv.
  Qed.

  Lemma bfs_loop_ok M : forall fuel P Q, inv M P Q -> (length g < fuel + length P)%nat ->
    exists L P', bfs_loop g M fuel (map (fun x => (fst x, Z.of_nat (snd x))) Q) (map fst (P ++ Q)) = (L, GEnded) /\
      map fst P' = map fst (P ++ Q) ++ L /\ inv M P' [].
  Proof.
    induction fuel as [|fuel IH]; intros P Q HI Hf.
    - pose proof (inv_length _ _ _ HI) as HL. rewrite app_length in HL. lia.
    - destruct Q as [|[u d] Q].
      + exists [], P. cbn. rewrite !app_nil_r. auto.
      + cbn [map bfs_loop fst snd]. destruct (deeper M (Z.of_nat d)) eqn:Ed.
        * apply deeper_ltM in Ed.
          assert (Hu : vertex g u) by (apply (i_w _ _ _ HI u d); apply in_or_app; right; left; reflexivity).
          destruct (adj_row u Hu) as (a & Ea & Na & Ha). rewrite Ea.
          rewrite bfs_scan_eq by exact Na. set (N := new (map fst (P ++ (u, d) :: Q)) (dkeys a)).
          pose proof (inv_step M P u d Q (dkeys a) HI Ed Na Ha) as HI'. fold N in HI'.
          destruct (IH _ _ HI') as (L & P' & E1 & E2 & E3).
          { rewrite app_length. cbn [length]. lia. }
          exists (N ++ L), P'.
          replace (map (fun x => (fst x, Z.of_nat (snd x))) Q ++ map (fun v => (v, Z.of_nat d + 1)) N) with
            (map (fun x => (fst x, Z.of_nat (snd x))) (Q ++ map (fun v => (v, S d)) N)).
          2:{ rewrite map_app, map_map. f_equal. apply map_ext. intros v. cbn [fst snd]. f_equal. lia. }
          replace (map fst ((P ++ [(u, d)]) ++ Q ++ map (fun v => (v, S d)) N)) with (map fst (P ++ (u, d) :: Q) ++ N) in *.
          2:{ rewrite !map_app, map_map, map_id. cbn [map fst]. rewrite <- !app_assoc. reflexivity. }
          rewrite E1. split; [reflexivity|]. split; [|exact E3]. rewrite E2, <- app_assoc. reflexivity.
        * assert (Hd : ~ ltM M d) by (rewrite <- deeper_ltM, Ed; discriminate).
          pose proof (inv_skip M P u d Q HI Hd) as HI'. destruct (IH _ _ HI') as (L & P' & E1 & E2 & E3).
          { rewrite app_length. cbn [length]. lia. }
          exists L, P'. rewrite <- app_assoc in E1, E2. auto.
  Qed.

  (** what the final list of vertices and depths is *)
  Lemma inv_final M P : inv M P [] -> (forall v d, In (v, d) P -> dist g s v d) /\
    (forall v n, walk g s n v -> leM M n -> exists d, In (v, d) P /\ (d <= n)%nat).
  Proof.
    intros [H1 H2 H3 H4 H5 H6]. rewrite !app_nil_r in *.
    assert (C : forall v n, walk g s n v -> leM M n -> exists d, In (v, d) P /\ (d <= n)%nat).
    { intros v n W. induction W as [|n u v W IH Hev]; intros Hn.
      - destruct H2 as [r ->]. exists O. split; [left; reflexivity|lia].
      - destruct IH as (d & Hd & Hle). { destruct M as [m|]; cbn in *; [lia|exact I]. }
        destruct (H6 u d v Hd) as (d' & A & B); [destruct M as [m|]; cbn in *; [lia|exact I]|exact Hev|].
        exists d'. split; [exact A|lia]. }
    split; [|exact C]. intros v d Hv. destruct (H5 v d Hv) as (W & _ & HM). split; [exact W|].
    intros m Wm. destruct HM as [->|HM].
    - destruct H2 as [r ->]. cbn in H1. inversion_clear H1 as [|? ? N1 N2]. destruct Hv as [E|Hv].
      + injection E as <-. lia.
      + destruct N1. apply in_map_iff. exists (s, d). auto.
    - destruct (le_lt_dec d m) as [|Hlt]; [assumption|]. destruct (C v m Wm) as (d' & Hd' & Hle).
      { destruct M as [k|]; cbn in *; [lia|exact I]. }
      assert (d = d'); [|lia].
      assert (K : forall l (x y : Z * nat), NoDup (map fst l) -> In x l -> In y l -> fst x = fst y -> x = y).
      { clear. induction l as [|z l IH]; cbn; intros x y Hn Hx Hy E; [tauto|]. inversion_clear Hn as [|? ? N1 N2].
        destruct Hx as [->|Hx], Hy as [->|Hy]; auto; exfalso; apply N1.
        - rewrite E. apply in_map. exact Hy.
        - rewrite <- E. apply in_map. exact Hx. }
      specialize (K P (v, d) (v, d') H1 Hv Hd' eq_refl). injection K as K. exact K.
  Qed.

  Lemma dist_unique v m n : dist g s v m -> dist g s v n -> m = n.
  Proof. intros [A B] [C D]. pose proof (B n C). pose proof (D m A). lia. Qed.

  Lemma bfs_result M fuel : (length g < fuel)%nat -> exists P, inv M P [] /\
    breadth_first_search g s M fuel = (map fst P, GEnded).
  Proof.
    intros Hf. destruct (bfs_loop_ok M fuel [] [(s, O)] (inv_init M)) as (L & P & E1 & E2 & E3); [cbn; lia|].
    exists P. split; [exact E3|]. unfold breadth_first_search. cbn [map fst snd app Z.of_nat] in E1, E2. rewrite E1, E2. reflexivity.
  Qed.

  Lemma bfs_ok M fuel : (length g < fuel)%nat -> exists L, breadth_first_search g s M fuel = (L, GEnded) /\
    NoDup L /\ (forall v, In v L <-> v = s \/ exists n, walk g s n v /\ leM M n) /\
    StronglySorted (fun u v => forall m n, dist g s u m -> dist g s v n -> (m <= n)%nat) L /\
    (forall v, In v L -> vertex g v).
  Proof.
    intros Hf. destruct (bfs_result M fuel Hf) as (P & HI & E). exists (map fst P). split; [exact E|].
    destruct (inv_final M P HI) as [D C]. destruct HI as [H1 H2 H3 H4 H5 H6]. rewrite !app_nil_r in *.
    split; [exact H1|]. split; [|split].
    - intros v. split.
      + intros Hv. apply in_map_iff in Hv. destruct Hv as ([v' d] & E2 & Hv). cbn in E2. subst v'.
        destruct (H5 v d Hv) as (W & _ & [->|HM]); [left; reflexivity|right; eauto].
      + intros [->|(n & W & Hn)].
        * destruct H2 as [r ->]. left. reflexivity.
        * destruct (C v n W Hn) as (d & Hd & _). apply in_map_iff. exists (v, d). auto.
    - clear - D H3. induction H3 as [|x l Hl IH Hx]; cbn; constructor.
      + apply IH. intros v d Hv. apply D. right. exact Hv.
      + apply Forall_forall. intros v Hv. apply in_map_iff in Hv. destruct Hv as ([v' d] & <- & Hv).
        rewrite Forall_forall in Hx. specialize (Hx _ Hv). cbn [fst snd] in *. destruct x as [u e]. cbn [fst snd] in *.
        intros m n Dm Dn. pose proof (D u e (or_introl eq_refl)) as Du. pose proof (D v' d (or_intror Hv)) as Dv.
        pose proof (dist_unique u m e Dm Du). pose proof (dist_unique v' n d Dn Dv). lia.
    - intros v Hv. apply in_map_iff in Hv. destruct Hv as ([v' d] & <- & Hv). apply (H5 v' d Hv).
  Qed.

  (** ** The tree *)

  Definition tinv (V : list (Z * nat)) (prev : list (Z * option Z)) : Prop :=
    map fst prev = map fst V /\ (forall v, In (v, None) prev <-> v = s) /\
    (forall v p, In (v, Some p) prev -> edge g p v /\ exists d, In (p, d) V /\ In (v, S d) V).

  Lemma bfst_loop_ok : forall fuel P Q prev, inv None P Q -> tinv (P ++ Q) prev -> (length g < fuel + length P)%nat ->
    exists prev' P', bfst_loop g fuel (map fst Q) prev = Ret prev' /\ inv None P' [] /\ tinv P' prev'.
  Proof.
    induction fuel as [|fuel IH]; intros P Q prev HI HT Hf.
    - pose proof (inv_length _ _ _ HI) as HL. rewrite app_length in HL. lia.
    - destruct Q as [|[u d] Q].
      + exists prev, P. rewrite app_nil_r in HT. cbn. auto.
      + cbn [map bfst_loop fst].
        assert (Hud : In (u, d) (P ++ (u, d) :: Q)) by (apply in_or_app; right; left; reflexivity).
        assert (Hu : vertex g u) by (apply (i_w _ _ _ HI u d Hud)).
        destruct (adj_row u Hu) as (a & Ea & Na & Ha).
        assert (Eg : g_adj g u = Ret a) by (unfold g_adj, dgetM; rewrite Ea; reflexivity). rewrite Eg. cbn [bind].
        rewrite bfst_scan_eq by exact Na. destruct HT as (T1 & T2 & T3).
        unfold dkeys at 1 3. rewrite T1. set (N := new (map fst (P ++ (u, d) :: Q)) (dkeys a)).
        pose proof (inv_step None P u d Q (dkeys a) HI I Na Ha) as HI'. fold N in HI'.
        destruct (IH _ _ (prev ++ map (fun v => (v, Some u)) N) HI') as (prev' & P' & E1 & E2 & E3).
        * assert (EV : (P ++ [(u, d)]) ++ Q ++ map (fun v => (v, S d)) N = (P ++ (u, d) :: Q) ++ map (fun v => (v, S d)) N)
            by (rewrite <- !app_assoc; reflexivity). rewrite EV. split; [|split].
          -- rewrite !(map_app fst _ (map _ N)), T1, !map_map. reflexivity.
          -- intros v. rewrite in_app_iff, T2. split; [|auto]. intros [H|H]; [exact H|].
             apply in_map_iff in H. destruct H as (? & H & _). discriminate.
          -- intros v p Hv. apply in_app_iff in Hv. destruct Hv as [Hv|Hv].
             ++ destruct (T3 v p Hv) as (A & e & B & C). split; [exact A|]. exists e. split; apply in_or_app; auto.
             ++ apply in_map_iff in Hv. destruct Hv as (v' & Ev & Hv). injection Ev as <- <-.
                pose proof Hv as Hv2. apply new_In in Hv. destruct Hv as [Hv _]. apply Ha in Hv. split; [exact Hv|].
                exists d. split; apply in_or_app; [left; exact Hud|]. right. apply in_map_iff. exists v'. auto.
        * rewrite app_length. cbn [length]. lia.
        * exists prev', P'. split; [|auto]. rewrite map_app, map_map, map_id in E1. exact E1.
  Qed.

  Lemma bfst_ok : exists prev, breadth_first_search_tree g s = Ret prev /\ rooted_tree g s prev /\
    (forall v, In v (map fst prev) <-> reachable g s v) /\
    (forall v p n, In (v, Some p) prev -> dist g s p n -> dist g s v (S n)).
  Proof.
    destruct (bfst_loop_ok (S (length g)) [] [(s, O)] [(s, None)] (inv_init None)) as (prev & P & E & HI & T1 & T2 & T3).
    - split; [reflexivity|]. split.
      + intros v. cbn. split; [intros [X|[]]; injection X as ->; reflexivity|intros ->; auto].
      + intros v p [X|[]]. discriminate.
    - cbn. lia.
    - exists prev. split; [exact E|]. destruct (inv_final None P HI) as [D C].
      assert (K : forall v, In v (map fst prev) <-> reachable g s v).
      { intros v. rewrite T1. split.
        - intros H. apply in_map_iff in H. destruct H as ([v' d] & <- & H). exists d. apply (D v' d H).
        - intros [n W]. destruct (C v n W I) as (d & H & _). apply in_map_iff. exists (v, d). auto. }
      split; [|split; [exact K|]].
      + split; [rewrite T1; pose proof (i_nd _ _ _ HI) as ND; rewrite app_nil_r in ND; exact ND|].
        split; [exact T2|]. split; [intros v p H; apply (T3 v p H)|].
        assert (A : forall d v, In (v, d) P -> ancestor prev s v).
        { induction d as [d IH] using lt_wf_ind. intros v Hv.
          assert (Hk : In v (map fst prev)) by (rewrite T1; apply in_map_iff; exists (v, d); auto).
          apply in_map_iff in Hk. destruct Hk as ([v' [p|]] & Ev & Hk); cbn in Ev; subst v'.
          - destruct (T3 v p Hk) as (_ & e & He & Hse). apply anc_step with p; [exact Hk|]. apply (IH e); [|exact He].
            pose proof (dist_unique v d (S e) (D _ _ Hv) (D _ _ Hse)). lia.
          - apply T2 in Hk as Hk2. subst v. apply anc_refl. apply in_map_iff. exists (s, None). auto. }
        intros v Hv. rewrite T1 in Hv. apply in_map_iff in Hv. destruct Hv as ([v' d] & <- & Hv). apply (A d). exact Hv.
      + intros v p n Hv Hp. destruct (T3 v p Hv) as (_ & e & He & Hse).
        rewrite (dist_unique p n e Hp (D _ _ He)). apply D. exact Hse.
  Qed.
End BFS.
