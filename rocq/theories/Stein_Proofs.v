(** * Proofs about Steiner trees: connected sets of edges, tours, the growth of a tree *)
From Coq Require Import ZArith List Lia Bool Permutation.
From Verif Require Import Base Py Dict Lists Lists2 Graph_Model Graph_Spec Graph_Proofs UF_Model UF_Spec UF_Proofs Trav_Model Trav_Spec Paths_Model Paths_Spec MST_Model MST_Spec MST_Proofs Stein_Spec.
Import ListNotations.
Open Scope Z_scope.

Lemma tw_nonneg g T W : nonneg g -> total_weight g T W -> 0 <= W.
Proof. intros N H. induction H as [|u v w T W Hw _ IH]; [lia|]. specialize (N _ _ _ Hw). lia. Qed.

Lemma tw_edge g T W u v : total_weight g T W -> In (u, v) T -> edge g u v.
Proof. intros H. induction H as [|a b w T W Hw _ IH]; [intros []|]. intros [E|I]; [injection E as -> ->; exists w; exact Hw|apply IH, I]. Qed.

(** ** A spanning tree within a connected list of edges *)
Lemma extract V : NoDup V -> forall L, (forall u v, In (u, v) L -> In u V /\ In v V) ->
  exists T rest, Permutation L (T ++ rest) /\ (forall u v, In (u, v) L -> linked T u v) /\ (length T + classes (cls T) V <= length V)%nat.
Proof.
  intros N. induction L as [|(u, v) L IH] using rev_ind; intros H.
  - exists [], []. split; [constructor|]. split; [intros u v []|]. unfold classes. replace (map (cls []) V) with V by (symmetry; apply map_id).
    rewrite nodup_fixed_point by exact N. cbn. lia.
  - destruct IH as (T & rest & P & Lk & C); [intros a b I; apply H, in_app_iff; left; exact I|].
    destruct (H u v) as (Hu & Hv); [apply in_app_iff; right; left; reflexivity|].
    destruct (linked_dec T u v) as [D|D].
    + exists T, (rest ++ [(u, v)]). split; [rewrite P, app_assoc; reflexivity|]. split; [|exact C].
      intros a b I. apply in_app_iff in I as [I|[E|[]]]; [apply Lk, I|injection E as <- <-; exact D].
    + exists (T ++ [(u, v)]), rest. split; [rewrite P, <- !app_assoc; apply Permutation_app_head, Permutation_app_comm|]. split.
      * intros a b I. apply in_app_iff in I as [I|[E|[]]].
        -- apply (linked_sub T); [intros e He; apply in_app_iff; left; exact He|apply Lk, I].
        -- injection E as <- <-. apply linked_edge, in_app_iff. right. left. reflexivity.
      * rewrite cls_snoc, app_length. cbn [length]. assert (Q := classes_join_upper (cls T) u v V Hu Hv ltac:(rewrite cls_linked; exact D)). lia.
Qed.

Lemma spanning_within g V L W : nonneg g -> NoDup V -> V <> [] -> (forall u v, In (u, v) L -> In u V /\ In v V) ->
  (forall u v, In u V -> In v V -> linked L u v) -> total_weight g L W -> exists T W', spanning_tree g V T /\ total_weight g T W' /\ W' <= W.
Proof.
  intros Nn N Ne HL Lk TW. destruct (extract V N L HL) as (T & rest & P & Lk' & C).
  assert (TW' := tw_perm g _ _ _ P TW). apply tw_app in TW' as (W1 & W2 & T1 & T2 & E).
  exists T, W1. split; [|split; [exact T1|assert (Q := tw_nonneg g rest W2 Nn T2); lia]].
  assert (LT : forall u v, In u V -> In v V -> linked T u v) by (intros u v Hu Hv; eapply linked_incl; [exact Lk'|apply Lk; assumption]).
  split; [|split].
  - intros u v I. destruct (HL u v) as (Hu & Hv); [apply (Permutation_in _ (Permutation_sym P)), in_app_iff; left; exact I|].
    split; [exact Hu|]. split; [exact Hv|]. exact (tw_edge g T W1 u v T1 I).
  - exact LT.
  - assert (Q := linked_lower T V N LT). assert (1 <= classes (cls T) V)%nat; [|lia]. unfold classes. destruct V as [|x V']; [congruence|].
    assert (In (cls T x) (nodup Z.eq_dec (map (cls T) (x :: V')))) as I by (apply nodup_In; left; reflexivity).
    destruct (nodup Z.eq_dec (map (cls T) (x :: V'))); [destruct I|cbn; lia].
Qed.

Lemma crossing T (S : Z -> bool) u v : linked T u v -> S u <> S v -> exists a b, In (a, b) T /\ S a <> S b.
Proof.
  intros L. induction L as [u v I|u|u v _ IH|u v w _ IH1 _ IH2]; intros D.
  - exists u, v. split; assumption.
  - congruence.
  - apply IH. congruence.
  - destruct (bool_dec (S u) (S v)) as [E|E]; [apply IH2; congruence|apply IH1; exact E].
Qed.

(** ** Sums along a list *)
Section Metric.
  Context (d : Z -> Z -> Z) (U : Z -> Prop).
  Hypothesis d0 : forall x, U x -> d x x = 0.
  Hypothesis dsym : forall x y, U x -> U y -> d x y = d y x.
  Hypothesis dtri : forall x y z, U x -> U y -> U z -> d x z <= d x y + d y z.

  Fixpoint psum (l : list Z) : Z :=
    match l with [] => 0 | x :: l' => (match l' with [] => 0 | y :: _ => d x y end) + psum l' end.

  Lemma psum_app A x B : psum (A ++ x :: B) = psum (A ++ [x]) + psum (x :: B).
  Proof using Type.
    induction A as [|a A IH]; [cbn [app psum]; lia|]. cbn [app psum]. rewrite IH. destruct A; cbn; lia.
  Qed.

  Lemma d_nonneg x y : U x -> U y -> 0 <= d x y.
  Proof using d0 dsym dtri. intros Hx Hy. assert (A := dtri x y x Hx Hy Hx). rewrite (d0 x Hx), (dsym y x Hy Hx) in A. lia. Qed.

  Lemma psum_insert A p x q B w : U p -> U x -> U q -> d p x <= w -> psum (A ++ p :: x :: q :: B) <= psum (A ++ p :: q :: B) + 2 * w.
  Proof using dsym dtri.
    intros Hp Hx Hq Hw. rewrite (psum_app A p (x :: q :: B)), (psum_app A p (q :: B)). cbn [psum].
    assert (T := dtri x p q Hx Hp Hq). rewrite (dsym x p Hx Hp) in T. lia.
  Qed.

  Lemma psum_filter keep : forall l x z, U x -> U z -> (forall y, In y l -> U y) -> psum (x :: filter keep l ++ [z]) <= psum (x :: l ++ [z]).
  Proof using d0 dsym dtri.
    assert (First : forall l x y z, U x -> U y -> U z -> (forall y, In y l -> U y) -> psum (x :: l ++ [z]) <= d x y + psum (y :: l ++ [z])).
    { intros l x y z Hx Hy Hz Hl. destruct l as [|a l]; cbn [app psum].
      - assert (T := dtri x y z Hx Hy Hz). lia.
      - assert (T := dtri x y a Hx Hy (Hl a (or_introl eq_refl))). lia. }
    induction l as [|y l IH]; intros x z Hx Hz Hl; [cbn; lia|]. cbn [filter].
    assert (Hy : U y) by (apply Hl; left; reflexivity). assert (Hl' : forall a, In a l -> U a) by (intros a Ha; apply Hl; right; exact Ha).
    destruct (keep y).
    - cbn [app]. change (psum (x :: y :: ?l)) with (d x y + psum (y :: l)). specialize (IH y z Hy Hz Hl'). lia.
    - eapply Z.le_trans; [apply (First _ x y z Hx Hy Hz)|]; [intros a Ha; apply filter_In in Ha; apply Hl', Ha|].
      cbn [app]. change (psum (x :: y :: l ++ [z])) with (d x y + psum (y :: l ++ [z])). specialize (IH y z Hy Hz Hl'). lia.
  Qed.

  (** *** A tour of the vertices of a connected list of edges *)
  Lemma tour g T W V r0 : nonneg g -> total_weight g T W -> (forall u v w, weight g u v = Some w -> U u -> U v -> d u v <= w) ->
    NoDup V -> In r0 V -> (forall v, In v V -> U v) -> (forall u v, In (u, v) T -> In u V /\ In v V) -> (forall u v, In u V -> In v V -> linked T u v) ->
    exists l, NoDup (r0 :: l) /\ (forall x, In x (r0 :: l) <-> In x V) /\ psum (r0 :: l ++ [r0]) <= 2 * W.
  Proof using d0 dsym dtri.
    intros Nn TW Hd NV Hr HU HT Lk.
    assert (G : forall m l A B W1, (length V - length (r0 :: l) <= m)%nat -> NoDup (r0 :: l) -> (forall x, In x (r0 :: l) -> In x V) ->
      Permutation T (A ++ B) -> total_weight g A W1 -> (forall u v, In (u, v) A -> In u (r0 :: l) /\ In v (r0 :: l)) -> psum (r0 :: l ++ [r0]) <= 2 * W1 ->
      exists l', NoDup (r0 :: l') /\ (forall x, In x (r0 :: l') <-> In x V) /\ psum (r0 :: l' ++ [r0]) <= 2 * W).
    { induction m as [|m IH]; intros l A B W1 Lm Nl Il P TA EA Ps.
      - exists l. split; [exact Nl|]. split.
        + intros x. split; [apply Il|]. intros Hx. assert (LV : (length V <= length (r0 :: l))%nat) by (cbn [length] in *; lia). exact (NoDup_length_incl Nl LV Il x Hx).
        + assert (TW' := tw_perm g _ _ _ P TW). apply tw_app in TW' as (W1' & W2 & T1 & T2 & E). rewrite (tw_fun g A W1 W1' TA T1) in Ps.
          assert (Q := tw_nonneg g B W2 Nn T2). lia.
      - destruct (Forall_dec (fun v => In v (r0 :: l)) (fun v => in_dec Z.eq_dec v (r0 :: l)) V) as [F|F].
        + exists l. split; [exact Nl|]. split.
          * intros x. split; [apply Il|]. intros Hx. rewrite Forall_forall in F. apply F, Hx.
          * assert (TW' := tw_perm g _ _ _ P TW). apply tw_app in TW' as (W1' & W2 & T1 & T2 & E). rewrite (tw_fun g A W1 W1' TA T1) in Ps.
            assert (Q := tw_nonneg g B W2 Nn T2). lia.
        + apply neg_Forall_Exists_neg in F; [|intros v; apply in_dec, Z.eq_dec]. apply Exists_exists in F as (v & Hv & Nv).
          set (S := fun x => if in_dec Z.eq_dec x (r0 :: l) then true else false).
          destruct (crossing T S r0 v (Lk r0 v Hr Hv)) as (a & b & Iab & Dab).
          { unfold S. destruct (in_dec Z.eq_dec r0 (r0 :: l)) as [_|C]; [|exfalso; apply C; left; reflexivity]. destruct (in_dec Z.eq_dec v (r0 :: l)); [contradiction|discriminate]. }
          assert (IB : In (a, b) B).
          { assert (Q := Permutation_in _ P Iab). apply in_app_iff in Q as [Q|Q]; [|exact Q]. exfalso. destruct (EA a b Q) as (Qa & Qb). apply Dab. unfold S.
            destruct (in_dec Z.eq_dec a (r0 :: l)); [|contradiction]. destruct (in_dec Z.eq_dec b (r0 :: l)); [reflexivity|contradiction]. }
          apply in_split in IB as (B1 & B2 & EB). destruct (HT a b Iab) as (Va & Vb).
          assert (Eab : edge g a b) by (exact (tw_edge g T W a b TW Iab)). destruct Eab as (w & Ew). assert (w0 := Nn _ _ _ Ew).
          assert (exists p x, In p (r0 :: l) /\ ~ In x (r0 :: l) /\ In x V /\ d p x <= w /\ ((a = p /\ b = x) \/ (a = x /\ b = p))) as (p & x & Hp & Nx & Vx & Dpx & Or).
          { unfold S in Dab. destruct (in_dec Z.eq_dec a (r0 :: l)) as [Ia|Na], (in_dec Z.eq_dec b (r0 :: l)) as [Ib|Nb]; try congruence.
            - exists a, b. split; [exact Ia|]. split; [exact Nb|]. split; [exact Vb|]. split; [apply Hd; [exact Ew|apply HU, Va|apply HU, Vb]|left; split; reflexivity].
            - exists b, a. split; [exact Ib|]. split; [exact Na|]. split; [exact Va|]. split; [rewrite dsym by (apply HU; assumption); apply Hd; [exact Ew|apply HU, Va|apply HU, Vb]|right; split; reflexivity]. }
          (* insert x after p *)
          assert (exists l', Permutation (r0 :: l') (x :: r0 :: l) /\ psum (r0 :: l' ++ [r0]) <= psum (r0 :: l ++ [r0]) + 2 * w) as (l' & Pl & Pw).
          { assert (Ux := HU x Vx). assert (Up := HU p (Il p Hp)).
            destruct Hp as [<-|Hp].
            - exists (x :: l). split; [apply perm_swap|]. cbn [app].
              assert (exists q B', l ++ [r0] = q :: B' /\ U q) as (q & B' & E & Uq).
              { destruct l as [|q l]; [exists r0, []; split; [reflexivity|apply HU, Hr]|exists q, (l ++ [r0]); split; [reflexivity|apply HU, Il; right; left; reflexivity]]. }
              rewrite E. apply (psum_insert [] r0 x q B' w); assumption.
            - apply in_split in Hp as (l1 & l2 & ->). exists (l1 ++ p :: x :: l2). split.
              { transitivity (r0 :: x :: l1 ++ p :: l2); [|apply perm_swap]. constructor. symmetry. rewrite (Permutation_middle (l1 ++ [p]) l2 x) at 1 || idtac.
                transitivity (x :: (l1 ++ [p]) ++ l2); [rewrite <- app_assoc; reflexivity|]. rewrite Permutation_middle. rewrite <- app_assoc. reflexivity. }
              rewrite <- !app_assoc. cbn [app].
              assert (exists q B', l2 ++ [r0] = q :: B' /\ U q) as (q & B' & E & Uq).
              { destruct l2 as [|q l2]; [exists r0, []; split; [reflexivity|apply HU, Hr]|exists q, (l2 ++ [r0]); split; [reflexivity|apply HU, Il; right; apply in_app_iff; right; right; left; reflexivity]]. }
              rewrite E. apply (psum_insert (r0 :: l1) p x q B' w); assumption. }
          apply (IH l' (A ++ [(a, b)]) (B1 ++ B2) (W1 + w)).
          * rewrite (Permutation_length Pl). cbn [length] in *. lia.
          * apply (Permutation_NoDup (Permutation_sym Pl)). constructor; [exact Nx|exact Nl].
          * intros y Hy. apply (Permutation_in _ Pl) in Hy as [<-|Hy]; [exact Vx|apply Il, Hy].
          * rewrite P, EB, <- app_assoc. apply Permutation_app_head. symmetry. exact (Permutation_middle B1 B2 (a, b)).
          * apply tw_app. exists W1, w. split; [exact TA|]. split; [replace w with (w + 0) by lia; constructor; [exact Ew|constructor]|reflexivity].
          * assert (Mono : forall y, In y (r0 :: l) \/ y = x -> In y (r0 :: l')).
            { intros y Hy. apply (Permutation_in _ (Permutation_sym Pl)). destruct Hy as [Hy| ->]; [right; exact Hy|left; reflexivity]. }
            intros y z I. apply in_app_iff in I as [I|[E|[]]].
            -- destruct (EA y z I). split; apply Mono; left; assumption.
            -- injection E as <- <-. destruct Or as [(-> & ->)|(-> & ->)]; split; apply Mono; auto.
          * lia. }
    apply (G (length V) [] [] T 0).
    - cbn. lia.
    - constructor; [intros []|constructor].
    - intros x [<-|[]]. exact Hr.
    - reflexivity.
    - constructor.
    - intros u v [].
    - cbn. rewrite (d0 r0 (HU r0 Hr)). lia.
  Qed.

  (** *** Dropping the longest part *)
  Lemma longest : forall l, (2 <= length l)%nat -> exists A a b B, l = A ++ a :: b :: B /\ psum l <= (Z.of_nat (length l) - 1) * d a b.
  Proof using Type.
    induction l as [|x l IH]; [cbn; lia|]. intros L. destruct l as [|y [|z l]]; [cbn in L; lia| |].
    - exists [], x, y, []. split; [reflexivity|]. cbn [length psum]. lia.
    - destruct IH as (A & a & b & B & E & H); [cbn; lia|].
      change (psum (x :: y :: z :: l)) with (d x y + psum (y :: z :: l)). remember (psum (y :: z :: l)) as X.
      remember (Z.of_nat (length (y :: z :: l)) - 1) as n.
      assert (En : Z.of_nat (length (x :: y :: z :: l)) - 1 = n + 1) by (rewrite Heqn; cbn [length]; lia).
      assert (n0 : 0 <= n) by (rewrite Heqn; cbn [length]; lia). rewrite En. clear - E H n0.
      destruct (Z_le_gt_dec (d x y) (d a b)) as [C|C].
      + exists (x :: A), a, b, B. split; [rewrite E; reflexivity|]. nia.
      + exists [], x, y, (z :: l). split; [reflexivity|]. nia.
  Qed.

  Lemma tour_path r0 l w : U r0 -> (forall x, In x l -> U x) -> psum (r0 :: l ++ [r0]) <= 2 * w ->
    exists P, Permutation P (r0 :: l) /\ Z.of_nat (length P) * psum P <= 2 * (Z.of_nat (length P) - 1) * w.
  Proof using d0 dsym dtri.
    intros Ur Ul H. destruct (longest (r0 :: l ++ [r0])) as (A & a & b & B & E & M); [cbn; rewrite app_length; cbn; lia|].
    assert (LL : Z.of_nat (length (r0 :: l ++ [r0])) - 1 = Z.of_nat (length (r0 :: l))) by (cbn [length]; rewrite app_length; cbn [length]; lia).
    rewrite LL in M. set (t := Z.of_nat (length (r0 :: l))) in *.
    assert (Tot : psum (r0 :: l ++ [r0]) = psum (A ++ [a]) + d a b + psum (b :: B)).
    { rewrite E, psum_app. cbn [psum]. lia. }
    assert (exists P, Permutation P (r0 :: l) /\ psum P = psum (A ++ [a]) + psum (b :: B)) as (P & PP & Ps).
    { destruct (exists_last (l := b :: B) ltac:(discriminate)) as (B0 & z & EB).
      assert (E2 : r0 :: l = A ++ a :: B0 /\ z = r0).
      { change (r0 :: l ++ [r0]) with ((r0 :: l) ++ [r0]) in E. rewrite EB in E. change (A ++ a :: B0 ++ [z]) with (A ++ (a :: B0) ++ [z]) in E. rewrite app_assoc in E.
        apply app_inj_tail in E as (E1 & E2). split; [exact E1|symmetry; exact E2]. }
      destruct E2 as (E2 & ->). destruct B0 as [|b0 B0].
      - cbn in EB. injection EB as -> ->. exists (r0 :: l). split; [reflexivity|]. rewrite E2. cbn [psum]. lia.
      - cbn [app] in EB. injection EB as -> ->. exists (b0 :: B0 ++ A ++ [a]). split.
        + rewrite E2. change (b0 :: B0 ++ A ++ [a]) with ((b0 :: B0) ++ A ++ [a]). rewrite Permutation_app_comm, <- app_assoc. reflexivity.
        + assert (exists A', A ++ [a] = r0 :: A') as (A' & EA).
          { destruct A as [|a0 A]; cbn in E2; injection E2 as -> _; [exists []; reflexivity|exists (A ++ [a]); reflexivity]. }
          rewrite EA. change (b0 :: B0 ++ r0 :: A') with ((b0 :: B0) ++ r0 :: A'). rewrite psum_app. cbn [app]. lia. }
    exists P. split; [exact PP|]. rewrite (Permutation_length PP). fold t. rewrite Ps.
    assert (t1 : 1 <= t) by (unfold t; cbn [length]; lia).
    assert (psum (A ++ [a]) + psum (b :: B) = psum (r0 :: l ++ [r0]) - d a b) as -> by lia.
    remember (psum (r0 :: l ++ [r0])) as X. remember (d a b) as Y. clear - H M t1. nia.
  Qed.
End Metric.
