(** * Dijkstra's algorithm with buckets *)
From Coq Require Import ZArith List Lia Bool Permutation Sorting.Sorted.
From Verif Require Import Base Py Dict Lists Lists2 Gen Graph_Model Graph_Spec Graph_Proofs
  Trav_Model Trav_Proofs Trav_Proofs2 Paths_Model Paths_Spec Paths_Proofs Paths_Proofs2.
Import ListNotations.
Open Scope Z_scope.

Definition inb (b : list (Z * list Z)) (d y : Z) : Prop := exists l, dget b d = Some l /\ In y l.
Definition getl (b : list (Z * list Z)) (d : Z) : list Z := match dget b d with Some l => l | None => [] end.
Definition bp (b : list (Z * list Z)) (x : Z * Z) := dset b (fst x) (getl b (fst x) ++ [snd x]).
Definition total (b : list (Z * list Z)) : nat := fold_right (fun x t => (length (snd x) + t)%nat) O b.

Lemma bucket_pushes I : forall b, foldM (fun b x => bucket_push b (fst x) (snd x)) I b = Ret (fold_left bp I b).
Proof. induction I as [|x I IH]; intros b; [reflexivity|]. cbn [foldM bind bucket_push fold_left]. rewrite IH. reflexivity. Qed.

Lemma dget_bp b x k : dget (bp b x) k = if fst x =? k then Some (getl b k ++ [snd x]) else dget b k.
Proof. unfold bp. rewrite dget_dset. destruct (Z.eqb_spec (fst x) k) as [->|]; reflexivity. Qed.

Lemma inb_bp b x d y : inb (bp b x) d y <-> inb b d y \/ x = (d, y).
Proof.
  unfold inb. rewrite dget_bp. destruct x as [dx vx]. cbn [fst snd]. destruct (Z.eqb_spec dx d) as [->|Hne].
  - unfold getl. split.
    + intros (l & E & H). injection E as <-. apply in_app_iff in H. destruct H as [H|[->|[]]]; [|auto].
      destruct (dget b d) as [l|]; [eauto|destruct H].
    + intros [(l & E & H)|E].
      * rewrite E. eexists. split; [reflexivity|]. apply in_or_app. auto.
      * injection E as ->. eexists. split; [reflexivity|]. apply in_or_app. right. left. reflexivity.
  - split; [auto|]. intros [H|E]; [exact H|]. injection E as -> _. congruence.
Qed.

Lemma inb_pushes I : forall b d y, inb (fold_left bp I b) d y <-> inb b d y \/ In (d, y) I.
Proof. induction I as [|x I IH]; intros b d y; cbn [fold_left In]; [tauto|]. rewrite IH, inb_bp. tauto. Qed.

Lemma keys_pushes I : forall b k, In k (dkeys (fold_left bp I b)) <-> In k (dkeys b) \/ In k (map fst I).
Proof.
  induction I as [|x I IH]; intros b k; cbn [fold_left map In]; [tauto|]. rewrite IH. unfold bp at 1. rewrite dkeys_dset_In.
  intuition congruence.
Qed.

Lemma nd_pushes I : forall b, NoDup (dkeys b) -> NoDup (dkeys (fold_left bp I b)).
Proof. induction I as [|x I IH]; intros b N; [exact N|]. cbn [fold_left]. apply IH. apply dset_NoDup. exact N. Qed.

Lemma prefix_pushes I : forall b m l, dget b m = Some l -> exists l', dget (fold_left bp I b) m = Some (l ++ l').
Proof.
  induction I as [|x I IH]; intros b m l E; cbn [fold_left]; [exists []; rewrite app_nil_r; exact E|].
  destruct (Z.eqb_spec (fst x) m) as [Ex|Ex].
  - destruct (IH (bp b x) m (l ++ [snd x])) as [l' El'].
    { rewrite dget_bp, Ex, Z.eqb_refl. unfold getl. rewrite E. reflexivity. }
    exists ([snd x] ++ l'). rewrite El', <- app_assoc. reflexivity.
  - apply IH. rewrite dget_bp. destruct (Z.eqb_spec (fst x) m); [congruence|exact E].
Qed.

Lemma total_bp b x : total (bp b x) = S (total b).
Proof.
  unfold bp, getl. induction b as [|[k l] b IH]; [reflexivity|]. cbn [dget dset]. destruct (k =? fst x); cbn [total fold_right snd].
  - rewrite app_length. cbn [length]. unfold total. lia.
  - unfold total in IH. rewrite IH. unfold total. lia.
Qed.

Lemma total_pushes I : forall b, total (fold_left bp I b) = (length I + total b)%nat.
Proof. induction I as [|x I IH]; intros b; [reflexivity|]. cbn [fold_left length]. rewrite IH, total_bp. lia. Qed.

Lemma length_pushes I : forall b, (length (fold_left bp I b) <= length I + length b)%nat.
Proof.
  induction I as [|x I IH]; intros b; [cbn; lia|]. cbn [fold_left length]. specialize (IH (bp b x)).
  assert (length (bp b x) <= S (length b))%nat; [|lia]. unfold bp. generalize (getl b (fst x) ++ [snd x]). intros v.
  clear. induction b as [|[k l] b IH]; cbn [dset length]; [lia|]. destruct (k =? fst x); cbn [length]; lia.
Qed.

Lemma total_get b m l : dget b m = Some l -> (length l <= total b)%nat.
Proof.
  induction b as [|[k l'] b IH]; cbn [dget total fold_right snd]; [discriminate|]. destruct (k =? m).
  - intros E. injection E as ->. lia.
  - intros E. apply IH in E. unfold total in E. lia.
Qed.

Lemma total_del b m : (total (ddel b m) <= total b)%nat.
Proof.
  induction b as [|[k l] b IH]; [cbn; lia|]. cbn [ddel]. destruct (k =? m); cbn [total fold_right snd]; unfold total in *; lia.
Qed.

Lemma length_del b m (l : list Z) : dget b m = Some l -> (S (length (ddel b m)) = length b)%nat.
Proof.
  induction b as [|[k l'] b IH]; cbn [dget ddel length]; [discriminate|]. destruct (k =? m); [reflexivity|].
  intros E. cbn [length]. rewrite (IH E). reflexivity.
Qed.

Lemma find_first p w : forall n a b, (Z.to_nat (b - a) <= n)%nat -> find p (zrange a b) = Some w ->
  a <= w < b /\ p w = true /\ forall k, a <= k < w -> p k = false.
Proof.
  induction n as [|n IH]; intros a b Hn E.
  - rewrite (zrange_nil a b) in E by lia. discriminate.
  - destruct (Z_lt_le_dec a b) as [H|H]; [|rewrite (zrange_nil a b) in E by lia; discriminate].
    rewrite (zrange_cons a b) in E by lia. cbn [find] in E. destruct (p a) eqn:Ea.
    + injection E as <-. split; [lia|]. split; [exact Ea|]. intros k Hk. lia.
    + destruct (IH (a + 1) b) as (A & B & C); [lia|exact E|]. split; [lia|]. split; [exact B|].
      intros k Hk. destruct (Z.eq_dec k a) as [->|]; [exact Ea|]. apply C. lia.
Qed.

Lemma max_bound m : forall l k, In k l -> k <= fold_right Z.max m l.
Proof. induction l as [|x l IH]; cbn; intros k H; [destruct H|]. destruct H as [->|H]; [lia|]. apply IH in H. lia. Qed.

Lemma next_bucket_ok (b : list (Z * list Z)) m : b <> [] -> (forall k, In k (dkeys b) -> m <= k) ->
  exists w, next_bucket b m = Ret w /\ In w (dkeys b) /\ forall k, In k (dkeys b) -> w <= k.
Proof.
  intros Hb Hk. unfold next_bucket. set (top := fold_right Z.max m (dkeys b)).
  destruct (find (dmem b) (zrange m (top + 1))) as [w|] eqn:F.
  - destruct (find_first (dmem b) w _ _ _ (le_n _) F) as (A & B & C). exists w. split; [reflexivity|].
    apply dmem_In in B. split; [exact B|]. intros k K. destruct (Z_lt_le_dec k w) as [Hlt|]; [|assumption].
    pose proof (C k (conj (Hk k K) Hlt)) as Ck. apply dmem_In in K. congruence.
  - exfalso. destruct b as [|[k l] b]; [congruence|].
    assert (K : In k (dkeys ((k, l) :: b))) by (left; reflexivity).
    pose proof (find_none _ _ F k) as N. rewrite (proj2 (dmem_In _ k) K) in N.
    assert (In k (zrange m (top + 1))); [|specialize (N H); discriminate].
    apply zrange_In. split; [apply Hk; exact K|]. pose proof (max_bound m _ k K). fold top in H. lia.
Qed.

Lemma firstn_snoc {A} : forall i (l : list A) u, nth_error l i = Some u -> firstn (S i) l = firstn i l ++ [u].
Proof.
  induction i as [|i IH]; intros [|x l] u E; try discriminate.
  - injection E as ->. reflexivity.
  - cbn [nth_error] in E. change (firstn (S (S i)) (x :: l)) with (x :: firstn (S i) l). rewrite (IH l u E). reflexivity.
Qed.

Section Buckets.
  Context (g : graph) (s : Z).
  Hypothesis Hg : undirected g.
  Hypothesis Hs : vertex g s.
  Hypothesis Hn : nonneg g.

  Record binv (dist : dists) (prev : prevs) (b : list (Z * list Z)) (S : list (Z * Z)) (m : Z) : Prop := {
    b_k : keysok g dist;
    b_j : J g s (getD dist) (getD prev) S;
    b_c : covers dist S (inb b);
    b_nd : NoDup (dkeys b);
    b_m : forall k, In k (dkeys b) -> m <= k }.

  Lemma bucket_scan_ok m : forall fuel i dist prev b S l, binv dist prev b S m -> dget b m = Some l ->
    (forall y, In y (firstn i l) -> In y (map fst S)) -> (length l - i + udeg g (map fst S) <= fuel)%nat ->
    exists dist' prev' b' S' l', bucket_scan g fuel i m dist prev b (map fst S) = Ret (dist', prev', b', map fst S') /\
      binv dist' prev' b' S' m /\ dget b' m = Some l' /\ (forall y, In y l' -> In y (map fst S')) /\
      (length b' + udeg g (map fst S') <= length b + udeg g (map fst S))%nat /\
      (total b' + udeg g (map fst S') <= total b + udeg g (map fst S))%nat.
  Proof.
    assert (End : forall i dist prev b S (l : list Z), binv dist prev b S m -> dget b m = Some l -> nth_error l i = None ->
      (forall y, In y (firstn i l) -> In y (map fst S)) ->
      exists dist' prev' b' S' l', @Ret (dists * prevs * list (Z * list Z) * list Z) (dist, prev, b, map fst S) = Ret (dist', prev', b', map fst S') /\
      binv dist' prev' b' S' m /\ dget b' m = Some l' /\ (forall y, In y l' -> In y (map fst S')) /\
      (length b' + udeg g (map fst S') <= length b + udeg g (map fst S))%nat /\
      (total b' + udeg g (map fst S') <= total b + udeg g (map fst S))%nat).
    { intros i dist prev b S l HB El En Hf. exists dist, prev, b, S, l. split; [reflexivity|]. split; [exact HB|]. split; [exact El|].
      split; [|lia]. apply nth_error_None in En. rewrite firstn_all2 in Hf by exact En. exact Hf. }
    induction fuel as [|fuel IH]; intros i dist prev b S l HB El Hf Hfu; cbn [bucket_scan];
      unfold dgetM; rewrite El; cbn [bind]; (destruct (nth_error l i) as [u|] eqn:En;
        [|apply (End i dist prev b S l HB El En Hf)]);
      (assert (Hi : (i < length l)%nat) by (apply nth_error_Some; congruence)).
    - lia.
    - destruct (mem u (map fst S)) eqn:Eu.
      + apply mem_In in Eu. destruct (IH (Datatypes.S i) dist prev b S l HB El) as (dist' & prev' & b' & S' & l' & E & R).
        * intros y Hy. rewrite (firstn_snoc i l u En) in Hy. apply in_app_iff in Hy. destruct Hy as [Hy|[<-|[]]]; auto.
        * lia.
        * exists dist', prev', b', S', l'. auto.
      + apply mem_false in Eu. pose proof HB as [HK HJ HC ND Hm].
        destruct (covers_pop dist S (inb b) m u HC) as [Edu Hmin].
        { exists l. split; [exact El|]. apply nth_error_In with i. exact En. }
        { intros d y (l0 & E0 & _). apply Hm. apply dget_key. eauto. }
        { exact Eu. }
        destruct (settle g s Hg Hn bucket_push dist prev S u m HK HJ Eu Edu Hmin)
          as (row & I & dist' & prev' & Eg & Er & Nr & Erx & _ & _ & HK' & HJ' & NI & LI & HI & HnI).
        rewrite Eg. cbn [bind]. rewrite Erx, bucket_pushes. cbn [bind].
        destruct (prefix_pushes I b m l El) as [l2 El2].
        replace (map fst S ++ [u]) with (map fst (S ++ [(u, m)])) by (rewrite map_app; reflexivity).
        pose proof (udeg_visit g (map fst S) u row (proj1 Hg) Er Eu) as Hud.
        assert (Hud' : udeg g (map fst (S ++ [(u, m)])) = udeg g (map fst S ++ [u])) by (rewrite map_app; reflexivity).
        assert (HB' : binv dist' prev' (fold_left bp I b) (S ++ [(u, m)]) m).
        { constructor; auto.
          - apply covers_step with dist (inb b) I; auto.
            + intros d v Hv. destruct (HI d v Hv) as (_ & A & B & _). auto.
            + intros d y Hy _. apply inb_pushes. auto.
            + intros d y Hy. apply inb_pushes. auto.
            + intros d y Hy. apply inb_pushes. exact Hy.
          - apply nd_pushes. exact ND.
          - intros k Hk. apply keys_pushes in Hk. destruct Hk as [Hk|Hk]; [auto|].
            apply in_map_iff in Hk. destruct Hk as ([d v] & <- & Hk). cbn [fst]. apply (HI d v Hk). }
        pose proof (total_pushes I b) as HT. pose proof (length_pushes I b) as HL.
        assert (Hl2 : (length l2 <= length I)%nat).
        { clear - El El2. revert b l l2 El El2. induction I as [|x I IH]; intros b l l2 El El2; cbn [fold_left length] in *.
          - rewrite El in El2. injection El2 as E. rewrite <- (app_nil_r l) in E at 1. apply app_inv_head in E. subst. cbn. lia.
          - destruct (Z.eqb_spec (fst x) m) as [Ex|Ex].
            + assert (E1 : dget (bp b x) m = Some (l ++ [snd x])) by (rewrite dget_bp, Ex, Z.eqb_refl; unfold getl; rewrite El; reflexivity).
              destruct (prefix_pushes I _ _ _ E1) as [l3 E3]. rewrite El2 in E3. injection E3 as E3. rewrite <- app_assoc in E3.
              apply app_inv_head in E3. subst l2. cbn [app length]. apply le_n_S. apply (IH (bp b x) (l ++ [snd x])); [exact E1|].
              rewrite El2. rewrite <- app_assoc. reflexivity.
            + assert (E1 : dget (bp b x) m = Some l) by (rewrite dget_bp; destruct (Z.eqb_spec (fst x) m); [congruence|exact El]).
              specialize (IH _ _ _ E1 El2). lia. }
        destruct (IH (Datatypes.S i) dist' prev' (fold_left bp I b) (S ++ [(u, m)]) (l ++ l2) HB' El2)
          as (dist2 & prev2 & b2 & S2 & l3 & E & HB2 & El3 & Hall & HL2 & HT2).
        * intros y Hy. rewrite firstn_app in Hy. replace (Datatypes.S i - length l)%nat with O in Hy by lia.
          rewrite app_nil_r, (firstn_snoc i l u En) in Hy. rewrite map_app, in_app_iff. apply in_app_iff in Hy.
          destruct Hy as [Hy|[<-|[]]]; [left; auto|right; left; reflexivity].
        * rewrite app_length. lia.
        * exists dist2, prev2, b2, S2, l3. split; [exact E|]. split; [exact HB2|]. split; [exact El3|]. split; [exact Hall|]. lia.
  Qed.

  Lemma bucket_loop_ok : forall fuel m dist prev b S, binv dist prev b S m ->
    (length b + udeg g (map fst S) <= fuel)%nat -> (total b + udeg g (map fst S) <= Datatypes.S (arcs g))%nat ->
    exists dist' prev', bucket_loop g fuel m dist prev b (map fst S) = Ret (dist', prev') /\ finished g s dist' prev'.
  Proof.
    assert (End : forall dist prev S m, binv dist prev [] S m -> finished g s dist prev).
    { intros dist prev S m [HK HJ HC ND Hm]. split; [exact HK|]. exists S. split; [exact HJ|].
      apply (settled_end dist S _ HC). intros d y (l & E & _). discriminate. }
    induction fuel as [|fuel IH]; intros m dist prev b S HB Hf Ht; (destruct b as [|x b];
      [exists dist, prev; split; [reflexivity|apply (End dist prev S m HB)]|]).
    - cbn in Hf. lia.
    - cbn [bucket_loop]. destruct (next_bucket_ok (x :: b) m) as (w & Ew & Kw & Mw); [discriminate|apply (b_m _ _ _ _ _ HB)|].
      rewrite Ew. cbn [bind]. apply dget_key in Kw. destruct Kw as [l El].
      assert (HB1 : binv dist prev (x :: b) S w) by (destruct HB; constructor; auto).
      destruct (bucket_scan_ok w (Datatypes.S (arcs g)) O dist prev (x :: b) S l HB1 El) as (dist' & prev' & b' & S' & l' & E & HB' & El' & Hall & HL & HT).
      { intros y []. }
      { pose proof (total_get _ _ _ El). lia. }
      rewrite E. cbn [bind]. apply IH.
      + destruct HB' as [HK HJ [C1 C2] ND Hm]. constructor; auto.
        * split.
          -- intros y d Ey Hy. destruct (C1 y d Ey Hy) as (l0 & E0 & H0). destruct (Z.eq_dec d w) as [->|Hne].
             ++ rewrite E0 in El'. injection El' as ->. destruct (Hy (Hall y H0)).
             ++ exists l0. rewrite dget_ddel by exact ND. destruct (Z.eqb_spec w d); [congruence|]. auto.
          -- intros d y (l0 & E0 & H0). apply C2. exists l0. rewrite dget_ddel in E0 by exact ND.
             destruct (w =? d); [discriminate|]. auto.
        * apply ddel_NoDup. exact ND.
        * intros k Hk. apply Hm. apply ddel_sub in Hk. exact Hk.
      + pose proof (length_del b' w l' El'). cbn [length] in *. lia.
      + pose proof (total_del b' w). lia.
  Qed.

  Lemma dijkstra_buckets_ok : exists dist prev, dijkstra_buckets g s = Ret (dist, prev) /\ finished g s dist prev.
  Proof.
    unfold dijkstra_buckets. rewrite (dmem_vertex g s Hs).
    apply (bucket_loop_ok (Datatypes.S (arcs g)) 0 _ [(s, None)] [(0, [s])] []).
    - constructor.
      + apply keysok_init.
      + apply J_start; [exact Hs|]. apply getD_single.
      + apply covers_start. intros d y. unfold inb. cbn [dget]. split.
        * intros (l & E & H). destruct (Z.eqb_spec 0 d); [|discriminate]. injection E as <-. destruct H as [<-|[]]. auto.
        * intros [-> ->]. exists [s]. cbn. auto.
      + repeat constructor. intros [].
      + intros k [<-|[]]. cbn. lia.
    - cbn [length map]. rewrite arcs_udeg. lia.
    - cbn [total fold_right snd length map]. rewrite arcs_udeg. lia.
  Qed.
End Buckets.
