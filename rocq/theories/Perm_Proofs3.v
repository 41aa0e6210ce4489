(** * Proofs about the generation of permutations: r-variations *)
From Coq Require Import ZArith List Lia Bool Sorting.Sorted Sorting.Permutation.
From Verif Require Import Base Lists Lists2 Gen Lex Perm_Model Perm_Proofs Perm_Proofs2.
Import ListNotations.
Open Scope Z_scope.

Definition is_rvariation (m : list Z) (r : Z) (a : list Z) : Prop := len a = r /\ exists t, Permutation (a ++ t) m.

Lemma find_r_ok e r j0 : 0 <= r < len e -> forall fuel j, j <= j0 -> 0 <= j -> j0 < len e -> (Z.to_nat (j0 - j) <= fuel)%nat ->
  (forall i, j <= i < j0 -> at_ e i <= at_ e r) -> at_ e r < at_ e j0 -> find_r fuel e r j = Ret j0.
Proof.
  intros Hr. induction fuel as [|f IH]; intros j H1 H2 H3 H4 H5 H6; cbn [find_r]; rewrite !pyget_at by lia; cbn [bind].
  - assert (j = j0) by lia. subst j. destruct (Z.leb_spec (at_ e j0) (at_ e r)); [lia|reflexivity].
  - destruct (Z.leb_spec (at_ e j) (at_ e r)) as [L|L].
    + assert (j <> j0) by (intros ->; lia). apply IH; try lia. intros i Hi. apply H5. lia.
    + f_equal. destruct (Z.eq_dec j j0); [assumption|]. specialize (H5 j). lia.
Qed.

(** An ascending list with an element above u splits at the first such element. *)
Lemma asc_split u : forall t, StronglySorted Z.le t -> (exists z, In z t /\ u < z) ->
  exists t1 v t2, t = t1 ++ v :: t2 /\ (forall z, In z t1 -> z <= u) /\ u < v.
Proof.
  induction t as [|c t IH]; intros Hs (z & Hz & Hlt); [destruct Hz|]. inversion_clear Hs as [|? ? H1 H2].
  destruct (Z_lt_ge_dec u c) as [L|L].
  - exists [], c, t. split; [reflexivity|]. split; [intros ? []|exact L].
  - destruct Hz as [->|Hz]; [lia|]. destruct (IH H1) as (t1 & v & t2 & -> & H3 & H4); [eauto|].
    exists (c :: t1), v, t2. split; [reflexivity|]. split; [|exact H4]. intros w [<-|Hw]; [lia|auto].
Qed.

Lemma lexlt_same_length : forall a b t t', length a = length b -> lexlt a b -> lexlt (a ++ t) (b ++ t').
Proof.
  induction a as [|x a IH]; intros [|y b] t t' Hl H; cbn in *; try lia; try tauto.
  destruct H as [H|[-> H]]; auto.
Qed.

Lemma lexlt_app_inv : forall a b t t', length a = length b -> lexlt (a ++ t) (b ++ t') -> lexlt a b \/ (a = b /\ lexlt t t').
Proof.
  induction a as [|x a IH]; intros [|y b] t t' Hl H; cbn in *; try lia; auto.
  destruct H as [H|[-> H]]; auto. destruct (IH b t t') as [|[-> ]]; auto.
Qed.

Lemma asc_last t i : StronglySorted Z.le t -> 0 <= i < len t -> at_ t i <= at_ t (len t - 1).
Proof.
  intros H Hi. assert (D : desc (rev t)) by (unfold desc; apply sorted_le_desc; rewrite rev_involutive; exact H).
  assert (G : forall k, 0 <= k < len t -> at_ t k = at_ (rev t) (len t - 1 - k)).
  { intros k Hk. unfold at_. rewrite rev_nth by lia. f_equal. lia. }
  rewrite !G by lia. apply desc_at_lt; [exact D|lia|rewrite rev_length; lia].
Qed.

Theorem rvariations_enum elements r : 0 <= r <= len elements -> elements <> [] ->
  exists L, yields (knuth_algorithm_l_rvariations elements r) L /\
  StronglySorted lexlt L /\ (forall a, In a L <-> is_rvariation elements r a).
Proof.
  intros Hr Hne. unfold knuth_algorithm_l_rvariations.
  assert (Hlen : 1 <= len elements) by (destruct elements; [congruence|cbn [length]; lia]).
  apply (gen_enum (firstn (Z.to_nat r)) (rvariations_next r) (is_rvariation elements r)
           (words elements (length elements))
           (fun e => Permutation e elements /\ StronglySorted Z.le (skipn (Z.to_nat r) e)) lexlt).
  - intros a [_ [t Ht]]. apply words_In.
    + apply Permutation_length in Ht. rewrite app_length in Ht. lia.
    + intros x Hx. eapply Permutation_in; [exact Ht|]. apply in_or_app. auto.
  - apply lexlt_irr.
  - apply lexlt_trans.
  - intros a b _ _. apply lexlt_tot.
  - intros e (H & _). split; [rewrite firstn_length_le; [lia|rewrite (Permutation_length H); lia]|].
    exists (skipn (Z.to_nat r) e). rewrite firstn_skipn. exact H.
  - intros e (Hp & Hs). assert (Le : length e = length elements) by (apply Permutation_length; exact Hp).
    assert (La : length (firstn (Z.to_nat r) e) = Z.to_nat r) by (apply firstn_length_le; lia).
    pose proof (eq_sym (firstn_skipn (Z.to_nat r) e)) as Ee.
    remember (firstn (Z.to_nat r) e) as a eqn:Ea. remember (skipn (Z.to_nat r) e) as t eqn:Et. clear Ea Et.
    assert (Lt : len e = len a + len t) by (rewrite Ee, app_length; lia).
    assert (Alast : 1 <= len t -> at_ e (len e - 1) = at_ t (len t - 1)).
    { intros H1. rewrite Ee at 1. rewrite at_app2 by lia. f_equal. lia. }
    (* the R3-R6 branch, when no element of the tail exceeds the last of the prefix *)
    assert (R36 : (forall u a', a = a' ++ [u] -> forall z, In z t -> z <= u) ->
      let nx := do e1 <- rev_loop (length e) e (r - 1 + 1) (len e - 1);
                do s <- knuth_step e1 (r - 1 - 1);
                Ret (match s with Some (e2, _) => Some e2 | None => None end) in
      (nx = Ret None /\ forall c, is_rvariation elements r c -> ~ lexlt a c) \/
      (exists s', nx = Ret (Some s') /\ (Permutation s' elements /\ StronglySorted Z.le (skipn (Z.to_nat r) s')) /\
         lexlt a (firstn (Z.to_nat r) s') /\
         forall c, is_rvariation elements r c -> lexlt a c -> ~ lexlt c (firstn (Z.to_nat r) s'))).
    { intros Hmax nx. set (e1 := a ++ rev t).
      assert (E1 : rev_loop (length e) e (r - 1 + 1) (len e - 1) = Ret e1).
      { unfold e1. rewrite Ee at 2. rewrite <- (app_nil_r t) at 1.
        rewrite rev_loop_ok; [rewrite app_nil_r; reflexivity| | |]; lia. }
      unfold nx. rewrite E1. cbn [bind].
      assert (Hp1 : Permutation e1 elements) by (unfold e1; rewrite <- Permutation_rev, <- Ee; exact Hp).
      assert (Hdt : desc (rev t)) by (unfold desc; apply sorted_le_desc; rewrite rev_involutive; exact Hs).
      assert (L1 : len e1 = len e) by (unfold e1; rewrite app_length, rev_length; lia).
      (* nothing between a and the prefix of the successor of e1 *)
      assert (Above : forall c t', len c = r -> lexlt a c -> lexlt e1 (c ++ t')).
      { intros c t' Hc Hlt. apply lexlt_same_length; [lia|exact Hlt]. }
      destruct (last_ascent e1) as [H|(p & x & s1 & y & s2 & Ee1 & Hd & Hxy & Hs2)].
      - left. rewrite knuth_step_none; [split; [reflexivity|]| |].
        + intros c [Hc [t' Ht']] Hlt. apply (desc_max e1 (c ++ t') H); [rewrite Ht'; symmetry; exact Hp1|]. apply Above; assumption.
        + intros i Hi. apply desc_at; [exact H|lia|lia].
        + lia.
      - (* the ascent is inside the prefix *)
        assert (Lp1 : len e1 = len p + 1 + len s1 + 1 + len s2).
        { rewrite Ee1, app_length. cbn [length]. rewrite app_length. cbn [length]. lia. }
        assert (Hpr : len p <= r - 2).
        { assert (Hasc : at_ e1 (len p) < at_ e1 (len p + 1)).
          { rewrite Ee1. rewrite at_app2 by lia. replace (len p - len p) with 0 by lia.
            replace (p ++ x :: s1 ++ y :: s2) with ((p ++ [x]) ++ s1 ++ y :: s2) by (rewrite <- app_assoc; reflexivity).
            rewrite at_app2 by (rewrite app_length; cbn [length]; lia).
            replace (len p + 1 - len (p ++ [x])) with 0 by (rewrite app_length; cbn [length]; lia).
            change (at_ (x :: s1 ++ y :: s2) 0) with x.
            destruct s1 as [|h s1]; [exact Hxy|]. change (at_ ((h :: s1) ++ y :: s2) 0) with h.
            destruct (desc_app_inv _ _ Hd) as (_ & _ & D3). specialize (D3 h y (or_introl eq_refl) (or_introl eq_refl)). lia. }
          destruct (Z_le_gt_dec (len p) (r - 2)) as [|G]; [assumption|]. exfalso.
          destruct (Z_lt_ge_dec (len p) r) as [G1|G1].
          - (* len p = r - 1 *) assert (Er : len p = r - 1) by lia.
            assert (Hna : a <> []) by (intros ->; cbn [length] in *; lia).
            destruct (exists_last Hna) as (a' & u & Eau).
            assert (La' : len a' = len p) by (rewrite Eau, app_length in La; cbn [length] in La; lia).
            assert (Au : at_ e1 (len p) = u).
            { unfold e1. rewrite Eau, <- app_assoc, at_app2 by lia. replace (len p - len a') with 0 by lia. reflexivity. }
            rewrite Au in Hasc. unfold e1 in Hasc. rewrite at_app2 in Hasc by lia.
            assert (Hin : In (at_ (rev t) (len p + 1 - len a)) t).
            { apply in_rev. apply nth_In. rewrite rev_length. lia. }
            specialize (Hmax u a' Eau _ Hin). lia.
          - unfold e1 in Hasc. rewrite !at_app2 in Hasc by lia.
            pose proof (desc_at (rev t) (len p - len a) Hdt) as Q. replace (len p - len a + 1) with (len p + 1 - len a) in Q by lia.
            rewrite rev_length in Q. lia. }
        right. rewrite Ee1. rewrite knuth_step_some; try assumption; [|lia|rewrite <- Ee1; lia]. cbn [bind]. eexists. split; [reflexivity|].
        destruct (next_arrangement p x s1 y s2 Hd Hxy Hs2) as (N1 & N2 & N3 & N4). rewrite <- Ee1 in *.
        set (l' := p ++ y :: rev (s1 ++ x :: s2)) in *.
        assert (Hpl' : Permutation l' elements) by (rewrite N1; exact Hp1).
        assert (Ll' : length l' = length elements) by (apply Permutation_length, Hpl').
        split; [split|].
        + exact Hpl'.
        + unfold l'. rewrite skipn_app. rewrite skipn_all2 by lia. cbn [app].
          replace (Z.to_nat r - length p)%nat with (S (Z.to_nat r - length p - 1)) by lia. cbn [skipn].
          assert (Gs : forall k l, StronglySorted Z.le l -> StronglySorted Z.le (skipn k l)).
          { induction k as [|k IH]; intros [|b l] H; cbn [skipn]; auto. inversion_clear H; auto. }
          apply Gs, N2.
        + assert (Ll'' : length (firstn (Z.to_nat r) l') = Z.to_nat r) by (apply firstn_length_le; lia).
          pose proof (firstn_skipn (Z.to_nat r) l') as Fs. split.
          * rewrite <- Fs in N3. unfold e1 in N3. apply lexlt_app_inv in N3; [|lia].
            destruct N3 as [|[Ea N3]]; [assumption|]. exfalso. apply (desc_max _ _ Hdt) in N3; [exact N3|].
            apply (Permutation_app_inv_l a). rewrite Ea at 1. rewrite Fs. exact N1.
          * intros c [Hc [t' Ht']] Hlt Hlt'. apply (N4 (c ++ t')).
            -- rewrite Ht'. symmetry. exact Hp1.
            -- apply Above; assumption.
            -- rewrite <- Fs. apply lexlt_same_length; [lia|exact Hlt']. }
    unfold rvariations_next. cbv zeta.
    rewrite (pyget_at e (len e - 1)) by lia.
    destruct (Z.eq_dec r 0) as [R0|R0].
    + rewrite pyget_atw by lia. cbn [bind]. unfold atw. destruct (Z.ltb_spec (r - 1) 0); [|lia].
      replace (r - 1 + len e) with (len e - 1) by lia. rewrite Z.ltb_irrefl. apply R36.
      intros u a' Eau. rewrite Eau, app_length in La. cbn [length] in La. lia.
    + rewrite (pyget_at e (r - 1)) by lia. cbn [bind].
      assert (Hna : a <> []) by (intros ->; cbn [length] in *; lia).
      destruct (exists_last Hna) as (a' & u & Eau).
      assert (La' : len a' = r - 1) by (rewrite Eau, app_length in La; cbn [length] in La; lia).
      assert (Au : at_ e (r - 1) = u).
      { rewrite Ee, Eau, <- app_assoc, at_app2 by lia. replace (r - 1 - len a') with 0 by lia. reflexivity. }
      rewrite Au. destruct (Z.ltb_spec u (at_ e (len e - 1))) as [L|L].
      * (* R2 *)
        assert (Hlt0 : 1 <= len t).
        { destruct t; [|cbn [length]; lia]. cbn [length] in Lt. replace (len e - 1) with (r - 1) in L by lia. lia. }
        destruct (asc_split u t Hs) as (t1 & v & t2 & -> & H1 & H2).
        { exists (at_ e (len e - 1)). split; [|exact L]. rewrite Alast by exact Hlt0. apply nth_In. lia. }
        assert (Ee' : e = a' ++ u :: t1 ++ v :: t2) by (rewrite Ee, Eau, <- app_assoc; reflexivity).
        rewrite app_length in Lt. cbn [length] in Lt.
        assert (Hat : forall i, 0 <= i < len t1 -> at_ e (r + i) = at_ t1 i).
        { intros i Hi. rewrite Ee, at_app2 by lia. rewrite at_app1 by lia. f_equal. lia. }
        assert (Hv : at_ e (r + len t1) = v).
        { rewrite Ee, at_app2 by lia. rewrite at_app2 by lia. replace (r + len t1 - len a - len t1) with 0 by lia. reflexivity. }
        rewrite (find_r_ok e (r - 1) (r + len t1)); [|lia|lia|lia|lia|lia| |].
        2: { intros i Hi. rewrite Au. replace i with (r + (i - r)) by lia. rewrite Hat by lia. apply H1, nth_In. lia. }
        2: { rewrite Au, Hv. exact H2. }
        assert (Esw : swap e (r - 1) (r + len t1) = Ret (a' ++ v :: t1 ++ u :: t2)).
        { rewrite Ee'. apply swap_mid; lia. }
        cbn [bind]. rewrite Esw. cbn [bind].
        right. eexists. split; [reflexivity|].
        assert (F1 : firstn (Z.to_nat r) (a' ++ v :: t1 ++ u :: t2) = a' ++ [v]).
        { replace (Z.to_nat r) with (length a' + 1)%nat by lia. rewrite firstn_app_2. reflexivity. }
        assert (F2 : skipn (Z.to_nat r) (a' ++ v :: t1 ++ u :: t2) = t1 ++ u :: t2).
        { rewrite skipn_app, skipn_all2 by lia. replace (Z.to_nat r - length a')%nat with 1%nat by lia. reflexivity. }
        rewrite F1, F2. destruct (SSorted_app_inv _ _ _ Hs) as (S1 & S2 & S3).
        inversion_clear S2 as [|? ? S4 S5]. rewrite Forall_forall in S5.
        split; [split|].
        -- rewrite <- Hp, Ee'. apply Permutation_app_head.
           rewrite <- (Permutation_middle t1 t2 u), <- (Permutation_middle t1 t2 v). constructor.
        -- apply SSorted_app; [exact S1| |].
           ++ constructor; [exact S4|]. apply Forall_forall. intros z Hz. specialize (S5 z Hz). lia.
           ++ intros z w Hz [<-|Hw]; [auto|]. specialize (S5 w Hw). specialize (H1 z Hz). lia.
        -- split.
           ++ rewrite Eau. apply lexlt_app. cbn. auto.
           ++ intros c [Hc [t' Ht']] Hlt Hcl. rewrite Eau in Hlt.
              destruct (lexlt_prefix a' _ [v] c Hlt) as [(d & -> & Hd)|Hgt]; [|exact (lexlt_irr _ (lexlt_trans _ _ _ Hcl Hgt))].
              apply (proj1 (lexlt_app a' _ _)) in Hcl. rewrite app_length in Hc.
              destruct d as [|d0 [|]]; cbn [length] in Hc; try lia. cbn in Hd, Hcl.
              assert (Hin : In d0 (u :: t1 ++ v :: t2)).
              { apply (Permutation_in d0 (l := d0 :: t')); [|left; reflexivity].
                rewrite <- Hp, Ee', <- app_assoc in Ht'. apply Permutation_app_inv_l in Ht'. exact Ht'. }
              destruct Hin as [->|Hin]; [lia|]. apply in_app_or in Hin. destruct Hin as [Hin|[->|Hin]]; [|lia|].
              ** specialize (H1 d0 Hin). lia.
              ** specialize (S5 d0 Hin). lia.
      * apply R36. intros u0 a0 E0 z Hz. rewrite Eau in E0. apply app_inj_tail in E0. destruct E0 as [_ <-].
        apply (In_nth _ _ 0) in Hz. destruct Hz as (k & Hk & <-).
        replace (nth k t 0) with (at_ t (Z.of_nat k)) by (unfold at_; rewrite Nat2Z.id; reflexivity).
        pose proof (asc_last t (Z.of_nat k) Hs). rewrite Alast in L by lia. lia.
  - split; [apply zsort_perm|]. assert (Gs : forall k l, StronglySorted Z.le l -> StronglySorted Z.le (skipn k l)).
    { induction k as [|k IH]; intros [|b l] H; cbn [skipn]; auto. inversion_clear H; auto. }
    apply Gs, zsort_sorted.
  - intros c [Hc [t Ht]] Hlt.
    apply (asc_min (zsort elements) (c ++ t) (zsort_sorted _)); [rewrite Ht; symmetry; apply zsort_perm|].
    rewrite <- (firstn_skipn (Z.to_nat r) (zsort elements)). apply lexlt_same_length; [|exact Hlt].
    rewrite firstn_length_le; [lia|rewrite zsort_length; lia].
Qed.
