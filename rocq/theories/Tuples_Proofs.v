(** * Proofs about the generation of combinations and tuples *)
From Coq Require Import ZArith List Lia Bool Sorting.Sorted Sorting.Permutation.
From Verif Require Import Base Lists Lists2 Gen Lex Perm_Proofs Tuples_Model.
Import ListNotations.
Open Scope Z_scope.

(** ** Combinations *)

(** t-subsets of {0..n-1}, written in decreasing order. *)
Definition is_combination (n t : Z) (d : list Z) : Prop :=
  len d = t /\ StronglySorted (fun x y => y < x) d /\ Forall (fun x => 0 <= x < n) d.

Definition low (k : nat) : list Z := map (fun j => j - 1) (zrange 1 (Z.of_nat k + 1)).

Lemma low_S k : low (S k) = low k ++ [Z.of_nat k].
Proof.
  unfold low. replace (Z.of_nat (S k) + 1) with (Z.of_nat k + 1 + 1) by lia. rewrite zrange_snoc by lia.
  rewrite map_app. cbn [map]. do 2 f_equal. lia.
Qed.

Lemma low_length k : length (low k) = k.
Proof. unfold low. rewrite map_length, zrange_length. lia. Qed.

(** The smallest decreasing list of k naturals. *)
Lemma low_min : forall k d, length d = k -> StronglySorted (fun x y => y < x) d -> Forall (fun x => 0 <= x) d ->
  ~ lexlt d (rev (low k)) /\ (k <> O -> Z.of_nat k - 1 <= hd 0 d).
Proof.
  induction k as [|k IH]; intros d Hl Hs Hf.
  - destruct d; [|discriminate]. cbn. split; [auto|congruence].
  - destruct d as [|x d]; [discriminate|]. injection Hl as Hl. inversion_clear Hs as [|? ? Hs1 Hs2].
    inversion_clear Hf as [|? ? Hf1 Hf2]. destruct (IH d Hl Hs1 Hf2) as [I1 I2].
    assert (Hx : Z.of_nat k <= x).
    { destruct d as [|y d]; [cbn in Hl; subst k; cbn; lia|]. inversion_clear Hs2 as [|? ? Hxy _]. cbn in I2.
      cbn [length] in Hl. specialize (I2 ltac:(lia)). lia. }
    split; [|intros _; cbn [hd]; lia]. rewrite low_S, rev_app_distr. cbn. intros [H|[_ H]]; [lia|tauto].
Qed.

(** The largest decreasing list of length k below c is c - 1, c - 2, ... *)
Fixpoint below (c : Z) (k : nat) : list Z :=
  match k with O => [] | S k' => (c - 1) :: below (c - 1) k' end.

Lemma below_max : forall k c d, length d = k -> StronglySorted (fun x y => y < x) (c :: d) -> ~ lexlt (below c k) d.
Proof.
  induction k as [|k IH]; intros c d Hl Hs.
  - destruct d; [|discriminate]. cbn. auto.
  - destruct d as [|x d]; [discriminate|]. injection Hl as Hl. inversion_clear Hs as [|? ? Hs1 Hs2].
    inversion_clear Hs2 as [|? ? Hs3 Hs4]. cbn. intros [H|[H1 H2]]; [lia|]. subst x. exact (IH _ d Hl Hs1 H2).
Qed.

Lemma below_hd run : forall c, rev run = below c (length run) -> hd c run = c - len run.
Proof.
  intros c H.
  assert (G : forall k c, last (below c k) c = c - Z.of_nat k).
  { induction k as [|k IH]; intros c0; cbn [below]; [cbn; lia|]. specialize (IH (c0 - 1)).
    destruct (below (c0 - 1) k) as [|y l] eqn:E; [cbn [last] in *; lia|].
    change (last (c0 - 1 :: y :: l) c0) with (last (y :: l) c0).
    assert (D : forall (l' : list Z) y' d d', last (y' :: l') d = last (y' :: l') d').
    { induction l' as [|z l' IHl]; intros; [reflexivity|]. exact (IHl z d d'). }
    rewrite (D l y c0 (c0 - 1)), IH. lia. }
  rewrite <- G, <- H. destruct run as [|r run]; [reflexivity|]. cbn [rev hd]. rewrite last_last. reflexivity.
Qed.

(** The inner loop: [run ++ c :: rest] where the run is consecutive. *)
Lemma comb_loop_ok n : 0 <= n -> forall cs k fuel, (length cs < fuel)%nat ->
  (exists c2 rest c run, cs = run ++ c :: rest /\ rev run = below c (length run) /\ c + 1 <> hd n rest /\
     c2 = 0 :: low (k + length run) ++ c :: rest ++ [n; 0] /\
     comb_loop fuel (0 :: low k ++ cs ++ [n; 0]) (Z.of_nat k + 1) = Ret (c2, Z.of_nat k + 1 + Z.of_nat (length run))) \/
  (rev cs = below n (length cs) /\ exists c2,
     comb_loop fuel (0 :: low k ++ cs ++ [n; 0]) (Z.of_nat k + 1) = Ret (c2, Z.of_nat k + 1 + Z.of_nat (length cs))).
Proof.
  intros Hn. induction cs as [|c cs IH]; intros k fuel Hf.
  - right. split; [reflexivity|]. eexists. cbn [app length]. rewrite Z.add_0_r.
    assert (G1 : pyget (0 :: low k ++ [n; 0]) (Z.of_nat k + 1) = Ret n).
    { apply (pyget_mid (0 :: low k)). cbn [length]. rewrite low_length. lia. }
    assert (G2 : pyget (0 :: low k ++ [n; 0]) (Z.of_nat k + 1 + 1) = Ret 0).
    { replace (0 :: low k ++ [n; 0]) with ((0 :: low k ++ [n]) ++ [0]) by (cbn [app]; rewrite <- app_assoc; reflexivity).
      apply pyget_mid. cbn [length]. rewrite app_length, low_length. cbn [length]. lia. }
    destruct fuel as [|f]; cbn [comb_loop]; rewrite G1, G2; cbn [bind];
      (destruct (Z.eqb_spec (n + 1) 0); [lia|]; reflexivity).
  - cbn [length] in Hf. destruct fuel as [|f]; [lia|]. cbn [comb_loop].
    assert (G1 : pyget (0 :: low k ++ (c :: cs) ++ [n; 0]) (Z.of_nat k + 1) = Ret c).
    { apply (pyget_mid (0 :: low k)). cbn [length]. rewrite low_length. lia. }
    assert (G2 : pyget (0 :: low k ++ (c :: cs) ++ [n; 0]) (Z.of_nat k + 1 + 1) = Ret (hd n cs)).
    { destruct cs as [|b cs].
      - replace (0 :: low k ++ [c] ++ [n; 0]) with ((0 :: low k ++ [c]) ++ n :: [0]) by (cbn [app]; rewrite <- app_assoc; reflexivity).
        apply pyget_mid. cbn [length]. rewrite app_length, low_length. cbn [length]. lia.
      - replace (0 :: low k ++ (c :: b :: cs) ++ [n; 0]) with ((0 :: low k ++ [c]) ++ b :: cs ++ [n; 0])
          by (cbn [app]; rewrite <- app_assoc; reflexivity).
        apply pyget_mid. cbn [length]. rewrite app_length, low_length. cbn [length]. lia. }
    rewrite G1, G2. cbn [bind]. destruct (Z.eqb_spec (c + 1) (hd n cs)) as [E|E].
    + assert (G3 : pyset (0 :: low k ++ (c :: cs) ++ [n; 0]) (Z.of_nat k + 1) (Z.of_nat k + 1 - 1) =
        Ret (0 :: low (S k) ++ cs ++ [n; 0])).
      { rewrite low_S, <- app_assoc. cbn [app]. change (0 :: low k ++ c :: cs ++ [n; 0]) with ((0 :: low k) ++ c :: cs ++ [n; 0]).
        rewrite pyset_mid by (cbn [length]; rewrite low_length; lia). cbn [app]. do 4 f_equal. lia. }
      rewrite G3. cbn [bind]. replace (Z.of_nat k + 1 + 1) with (Z.of_nat (S k) + 1) by lia.
      destruct (IH (S k) f) as [(c2 & rest & c0 & run & E1 & E2 & E3 & E4 & E5)|(E2 & c2 & E5)]; [lia| |].
      * left. exists c2, rest, c0, (c :: run). rewrite E1. split; [reflexivity|].
        assert (Ec : c = c0 - 1 - len run).
        { rewrite E1 in E. pose proof (below_hd run c0 E2) as Q. destruct run as [|r run]; cbn [app hd] in E, Q; lia. }
        split; [|split; [exact E3|split]].
        -- cbn [rev length]. rewrite E2, Ec. clear. generalize (length run) as m. intros m. revert c0.
           induction m as [|m IHm]; intros c0; cbn [below app]; [f_equal; lia|]. f_equal.
           replace (c0 - 1 - Z.of_nat (S m)) with (c0 - 1 - 1 - Z.of_nat m) by lia. apply IHm.
        -- rewrite E4. cbn [length]. do 3 f_equal. lia.
        -- rewrite <- E1, E5. do 2 f_equal. cbn [length]. lia.
      * right. split.
        -- cbn [rev length]. rewrite E2.
           assert (Ec : c = n - 1 - len cs).
           { pose proof (below_hd cs n E2) as Q. lia. }
           rewrite Ec. clear. generalize (length cs) as m. intros m. revert n.
           induction m as [|m IHm]; intros n; cbn [below app]; [f_equal; lia|]. f_equal.
           replace (n - 1 - Z.of_nat (S m)) with (n - 1 - 1 - Z.of_nat m) by lia. apply IHm.
        -- exists c2. rewrite E5. do 2 f_equal. cbn [length]. lia.
    + left. exists (0 :: low (k + 0) ++ c :: cs ++ [n; 0]), cs, c, []. cbn [length app]. rewrite Nat.add_0_r, Z.add_0_r.
      repeat split. exact E.
Qed.

Lemma below_sorted k : forall c, StronglySorted (fun x y => y < x) (below c k) /\ Forall (fun x => x < c) (below c k).
Proof.
  induction k as [|k IH]; intros c; cbn [below]; [split; constructor|]. destruct (IH (c - 1)) as [H1 H2]. split.
  - constructor; [exact H1|exact H2].
  - constructor; [lia|]. eapply Forall_impl; [|exact H2]. cbn. lia.
Qed.

Lemma dec_rev l : StronglySorted (fun x y => y < x) (rev l) <-> StronglySorted Z.lt l.
Proof.
  assert (G : forall (R : Z -> Z -> Prop) l, StronglySorted R l -> StronglySorted (fun x y => R y x) (rev l)).
  { intros R. induction l0 as [|x l0 IH]; intros H; cbn; [constructor|]. inversion_clear H as [|? ? H1 H2].
    apply SSorted_app; [apply IH, H1|repeat constructor|]. intros a b Ha [<-|[]]. rewrite Forall_forall in H2.
    apply H2, in_rev. exact Ha. }
  split; intros H.
  - apply (G (fun x y => y < x)) in H. rewrite rev_involutive in H. exact H.
  - apply (G Z.lt) in H. exact H.
Qed.

Lemma low_sorted k : StronglySorted Z.lt (low k) /\ Forall (fun x => 0 <= x < Z.of_nat k) (low k).
Proof.
  induction k as [|k [I1 I2]]; [split; constructor|]. rewrite low_S. rewrite Forall_forall in I2. split.
  - apply SSorted_app; [exact I1|repeat constructor|]. intros x y Hx [<-|[]]. specialize (I2 x Hx). lia.
  - apply Forall_app. split; [apply Forall_forall; intros x Hx; specialize (I2 x Hx); lia|repeat constructor; lia].
Qed.

Theorem combinations_enum n t : 0 <= t <= n -> exists L, yields (combinations n t) L /\
  StronglySorted lexlt L /\ (forall d, In d L <-> is_combination n t d).
Proof.
  intros Ht. unfold combinations.
  apply (gen_enum (comb_visit t) (comb_next t) (is_combination n t) (words (zrange 0 n) (Z.to_nat t))
    (fun c => exists cs, c = 0 :: cs ++ [n; 0] /\ is_combination n t (rev cs)) lexlt).
  - intros d (H1 & _ & H3). apply words_In; [lia|]. rewrite Forall_forall in H3. intros x Hx. apply zrange_In. apply H3, Hx.
  - apply lexlt_irr.
  - apply lexlt_trans.
  - intros a b _ _. apply lexlt_tot.
  - intros c (cs & -> & H). unfold comb_visit. cbn [tl]. rewrite firstn_app.
    destruct H as (H1 & H2). rewrite rev_length in H1. rewrite firstn_all2 by lia.
    replace (Z.to_nat t - length cs)%nat with 0%nat by lia. cbn [firstn]. rewrite app_nil_r.
    split; [rewrite rev_length; exact H1|exact H2].
  - intros c (cs & -> & H).
    assert (V : forall cs', len cs' = t -> comb_visit t (0 :: cs' ++ [n; 0]) = rev cs').
    { intros cs' Hl. unfold comb_visit. cbn [tl]. rewrite firstn_app, firstn_all2 by lia.
      replace (Z.to_nat t - length cs')%nat with 0%nat by lia. cbn [firstn]. rewrite app_nil_r. reflexivity. }
    destruct H as (H1 & H2 & H3). rewrite rev_length in H1. rewrite V by exact H1. unfold comb_next.
    destruct (comb_loop_ok n ltac:(lia) cs 0 (length (0 :: cs ++ [n; 0]))) as
      [(c2 & rest & c & run & E1 & E2 & E3 & E4 & E5)|(E2 & c2 & E5)].
    + cbn [length]. rewrite app_length. lia.
    + right. change (low 0) with (@nil Z) in E5. cbn [app] in E5. change (Z.of_nat 0 + 1) with 1 in E5. rewrite E5. cbn [bind].
      assert (Ll : len cs = len run + 1 + len rest) by (rewrite E1, app_length; cbn [length]; lia).
      destruct (Z.gtb_spec (1 + len run) t); [lia|]. rewrite E4.
      change (0 :: low (0 + length run) ++ c :: rest ++ [n; 0]) with ((0 :: low (length run)) ++ c :: rest ++ [n; 0]).
      rewrite pyget_mid by (cbn [length]; rewrite low_length; lia). cbn [bind].
      rewrite pyset_mid by (cbn [length]; rewrite low_length; lia). cbn [bind].
      set (cs' := low (length run) ++ (c + 1) :: rest).
      assert (Ll' : len cs' = t) by (unfold cs'; rewrite app_length, low_length; cbn [length]; lia).
      eexists. split; [reflexivity|].
      replace ((0 :: low (length run)) ++ c + 1 :: rest ++ [n; 0]) with (0 :: cs' ++ [n; 0])
        by (unfold cs'; cbn [app]; rewrite <- app_assoc; reflexivity).
      rewrite V by exact Ll'.
      assert (Rcs : rev cs = rev rest ++ c :: rev run) by (rewrite E1, rev_app_distr; cbn [rev]; rewrite <- app_assoc; reflexivity).
      assert (Rcs' : rev cs' = rev rest ++ (c + 1) :: rev (low (length run))).
      { unfold cs'. rewrite rev_app_distr. cbn [rev]. rewrite <- app_assoc. reflexivity. }
      pose proof H2 as Hs. rewrite Rcs in Hs. destruct (SSorted_app_inv _ _ _ Hs) as (S1 & S2 & S3).
      pose proof H3 as Hf. rewrite Rcs in Hf. apply Forall_app in Hf. destruct Hf as [F1 F2].
      inversion_clear F2 as [|? ? Fc F3].
      assert (Hnext : forall x, In x rest -> c + 1 < x).
      { intros x Hx. destruct rest as [|b rest]; [destruct Hx|]. cbn [hd] in E3.
        assert (c < b) by (apply (S3 b c); [apply -> in_rev; left; reflexivity|left; reflexivity]).
        assert (b <= x); [|lia]. destruct Hx as [->|Hx]; [lia|].
        apply dec_rev in S1. inversion_clear S1 as [|? ? _ S5]. rewrite Forall_forall in S5. specialize (S5 x Hx). lia. }
      assert (Hcn : c + 1 < n).
      { destruct rest as [|b rest]; [cbn [hd] in E3; lia|]. specialize (Hnext b (or_introl eq_refl)).
        rewrite Forall_forall in F1. specialize (F1 b). rewrite <- in_rev in F1. specialize (F1 (or_introl eq_refl)). lia. }
      (* c >= length run *)
      assert (Hrun : len run <= c).
      { destruct (low_min (length (c :: rev run)) (c :: rev run) eq_refl) as [_ Q].
        - inversion_clear S2; constructor; assumption.
        - constructor; [lia|]. eapply Forall_impl; [|exact F3]. cbn. lia.
        - cbn [length hd] in Q. rewrite rev_length in Q. specialize (Q ltac:(lia)). lia. }
      destruct (low_sorted (length run)) as [W1 W2]. rewrite Forall_forall in W2.
      assert (Hc' : is_combination n t (rev cs')).
      { split; [rewrite rev_length; exact Ll'|]. rewrite Rcs'. split.
        - apply SSorted_app; [exact S1| |].
          + constructor; [apply dec_rev; exact W1|]. apply Forall_forall. intros x Hx. apply in_rev in Hx. specialize (W2 x Hx). lia.
          + intros x y Hx [<-|Hy]; apply in_rev in Hx; specialize (Hnext x Hx); [lia|].
            apply in_rev in Hy. specialize (W2 y Hy). lia.
        - apply Forall_app. split; [exact F1|]. constructor; [lia|]. apply Forall_forall. intros x Hx.
          apply in_rev in Hx. specialize (W2 x Hx). lia. }
      split; [exists cs'; auto|]. rewrite Rcs, Rcs'. split; [apply lexlt_app; cbn; left; lia|].
      intros d (D1 & D2 & D3) Hlt Hlt'.
      destruct (lexlt_prefix (rev rest) _ ((c + 1) :: rev (low (length run))) d Hlt) as [(d' & -> & Hd)|Hgt];
        [|exact (lexlt_irr _ (lexlt_trans _ _ _ Hlt' Hgt))].
      apply (proj1 (lexlt_app (rev rest) _ _)) in Hlt'. destruct (SSorted_app_inv _ _ _ D2) as (D4 & D5 & D6).
      apply Forall_app in D3. destruct D3 as [_ D7]. rewrite app_length, rev_length in D1.
      destruct d' as [|x d']; [exact Hd|]. cbn [length] in D1. cbn in Hd, Hlt'.
      inversion_clear D7 as [|? ? D8 D9].
      destruct Hd as [Hd|[<- Hd]].
      * destruct Hlt' as [Hlt'|[-> Hlt']]; [lia|].
        inversion_clear D5 as [|? ? D10 D11]. destruct (low_min (length run) d') as [Q _]; [lia|exact D10| |exact (Q Hlt')].
        eapply Forall_impl; [|exact D9]. cbn. lia.
      * rewrite E2 in Hd. exact (below_max (length run) c d' ltac:(lia) D5 Hd).
    + left. change (low 0) with (@nil Z) in E5. cbn [app] in E5. change (Z.of_nat 0 + 1) with 1 in E5. rewrite E5. cbn [bind].
      destruct (Z.gtb_spec (1 + len cs) t); [|lia]. split; [reflexivity|].
      intros d (D1 & D2 & D3) Hlt. rewrite E2 in Hlt. apply (below_max (length cs) n d); [lia| |exact Hlt].
      constructor; [exact D2|]. eapply Forall_impl; [|exact D3]. cbn. lia.
  - exists (low (Z.to_nat t)). split.
    + unfold comb_start, low. rewrite Z2Nat.id by lia. reflexivity.
    + destruct (low_sorted (Z.to_nat t)) as [W1 W2]. split; [rewrite rev_length, low_length; lia|].
      split; [apply dec_rev, W1|]. apply Forall_forall. intros x Hx. apply in_rev in Hx. rewrite Forall_forall in W2.
      specialize (W2 x Hx). lia.
  - intros d (D1 & D2 & D3). replace (comb_visit t (comb_start n t)) with (rev (low (Z.to_nat t))).
    + apply low_min; [lia|exact D2|]. eapply Forall_impl; [|exact D3]. cbn. lia.
    + unfold comb_visit, comb_start. cbn [app tl]. rewrite firstn_app, firstn_all2 by (rewrite map_length, zrange_length; lia).
      rewrite map_length, zrange_length. replace (Z.to_nat t - Z.to_nat (t + 1 - 1))%nat with 0%nat by lia.
      cbn [firstn]. rewrite app_nil_r. unfold low. rewrite Z2Nat.id by lia. reflexivity.
Qed.

(** ** Tuples *)
Lemma Forall2_length {A B} {R : A -> B -> Prop} {l m} : Forall2 R l m -> length l = length m.
Proof. induction 1; cbn; congruence. Qed.

Definition is_tuple (M a : list Z) : Prop := Forall2 (fun x m => 0 <= x < m) a M.

Lemma tup_loop_ok : forall a M b N fuel, length a = length M -> length b = length N -> (length a < fuel)%nat ->
  (exists p x s q m r, a = p ++ x :: s /\ M = q ++ m :: r /\ length p = length q /\
     Forall2 (fun x m => x = m - 1) s r /\ x <> m - 1 /\
     tup_loop fuel (2 :: M ++ N) (0 :: a ++ b) (len a) = Ret (0 :: p ++ x :: map (fun _ => 0) s ++ b, len p + 1)) \/
  (Forall2 (fun x m => x = m - 1) a M /\ exists A', tup_loop fuel (2 :: M ++ N) (0 :: a ++ b) (len a) = Ret (A', 0)).
Proof.
  induction a as [|x a IH] using rev_ind; intros M b N fuel HM HN Hf.
  - right. destruct M; [|discriminate]. split; [constructor|]. eexists. destruct fuel; reflexivity.
  - rewrite app_length in HM, Hf. cbn [length] in HM, Hf.
    assert (HneM : M <> []) by (intros ->; cbn in HM; lia).
    destruct (exists_last HneM) as (M' & m & ->). rewrite app_length in HM. cbn [length] in HM.
    destruct fuel as [|f]; [lia|]. cbn [tup_loop].
    replace (0 :: (a ++ [x]) ++ b) with ((0 :: a) ++ x :: b) by (cbn [app]; rewrite <- app_assoc; reflexivity).
    replace (2 :: (M' ++ [m]) ++ N) with ((2 :: M') ++ m :: N) by (cbn [app]; rewrite <- app_assoc; reflexivity).
    rewrite pyget_mid by (rewrite app_length; cbn [length]; lia). cbn [bind].
    rewrite pyget_mid by (rewrite app_length; cbn [length]; lia). cbn [bind].
    destruct (Z.eqb_spec x (m - 1)) as [E|E].
    + rewrite pyset_mid by (rewrite app_length; cbn [length]; lia). cbn [bind app].
      rewrite app_length. cbn [length]. replace (Z.of_nat (length a + 1) - 1) with (len a) by lia.
      destruct (IH M' (0 :: b) (m :: N) f) as [(p & x0 & s & q & m0 & r & E1 & E2 & E3 & E4 & E5 & E6)|(E4 & A' & E6)];
        [lia|cbn [length]; lia|lia| |].
      * left. exists p, x0, (s ++ [x]), q, m0, (r ++ [m]). rewrite E1, E2, <- !app_assoc. cbn [app].
        split; [reflexivity|]. split; [reflexivity|]. split; [exact E3|].
        split; [apply Forall2_app; [exact E4|repeat constructor; exact E]|]. split; [exact E5|].
        rewrite E1, E2, <- !app_assoc in E6. cbn [app] in E6. rewrite E6. rewrite map_app, <- app_assoc. reflexivity.
      * right. split; [apply Forall2_app; [exact E4|repeat constructor; exact E]|]. exists A'. exact E6.
    + left. exists a, x, [], M', m, []. split; [reflexivity|]. split; [reflexivity|]. split; [lia|].
      split; [constructor|]. split; [exact E|]. cbn [map app]. rewrite app_length. cbn [length]. do 2 f_equal. lia.
Qed.

Lemma zeros_min : forall M d, is_tuple M d -> ~ lexlt d (map (fun _ => 0) M).
Proof. induction 1 as [|x m d M H _ IH]; cbn; [auto|]. intros [|[_ H']]; [lia|tauto]. Qed.

Lemma tuple_max : forall M a d, Forall2 (fun x m => x = m - 1) a M -> is_tuple M d -> ~ lexlt a d.
Proof.
  intros M a d H. revert d. induction H as [|x m a M E H IH]; intros d Hd; inversion_clear Hd as [|y ? d' ? Hy Hd']; cbn; [auto|].
  intros [|[_ H']]; [lia|]. exact (IH d' Hd' H').
Qed.

Lemma map_const_eq {A B} (c : Z) (u : list A) (v : list B) : length u = length v -> map (fun _ => c) u = map (fun _ => c) v.
Proof. revert v. induction u; intros [|]; cbn; intros; try discriminate; auto. f_equal. auto. Qed.

Theorem tuples_gen_enum M : Forall (fun m => 1 <= m) M -> exists L,
  yields (fun fuel => gen (@tl Z) (tup_next (len M) (2 :: M)) fuel (0 :: map (fun _ => 0) M)) L /\
  StronglySorted lexlt L /\ (forall a, In a L <-> is_tuple M a).
Proof.
  intros HM.
  apply (gen_enum (@tl Z) (tup_next (len M) (2 :: M)) (is_tuple M) (words (zrange 0 (fold_right Z.max 0 M)) (length M))
    (fun A => exists a, A = 0 :: a /\ is_tuple M a) lexlt).
  - intros a H. apply words_In; [rewrite (Forall2_length H); lia|].
    clear HM. induction H as [|x m a M H _ IH]; intros y Hy; [destruct Hy|]. apply zrange_In. cbn [fold_right].
    destruct Hy as [<-|Hy]; [lia|]. specialize (IH y Hy). apply zrange_In in IH. lia.
  - apply lexlt_irr.
  - apply lexlt_trans.
  - intros a b _ _. apply lexlt_tot.
  - intros A (a & -> & H). exact H.
  - intros A (a & -> & H). unfold tup_next. cbn [tl]. pose proof (Forall2_length H) as Hl.
    destruct (tup_loop_ok a M [] [] (length (0 :: a)) Hl eq_refl) as
      [(p & x & s & q & m & r & E1 & E2 & E3 & E4 & E5 & E6)|(E4 & A' & E6)]; [cbn [length]; lia| |];
      rewrite !app_nil_r in E6; replace (len a) with (len M) in E6 by lia; rewrite E6; cbn [bind].
    + right. destruct (Z.eqb_spec (len p + 1) 0); [lia|].
      change (0 :: p ++ x :: map (fun _ => 0) s) with ((0 :: p) ++ x :: map (fun _ => 0) s).
      rewrite pyget_mid by (cbn [length]; lia). cbn [bind]. rewrite pyset_mid by (cbn [length]; lia). cbn [bind].
      eexists. split; [reflexivity|]. cbn [app tl]. subst a M.
      apply Forall2_app_inv_l in H. destruct H as (M1 & M2 & H1 & H2 & EM).
      assert (L1 : length M1 = length q) by (rewrite <- (Forall2_length H1); exact E3).
      assert (M1 = q /\ M2 = m :: r) as [-> ->].
      { clear - EM L1. revert q EM L1. induction M1 as [|u M1 IH]; intros [|v q] EM L1; cbn in *; try lia; auto.
        injection EM as -> EM. destruct (IH q EM ltac:(lia)) as [-> ->]. auto. }
      inversion_clear H2 as [|? ? ? ? Hx Hs]. split; [|split].
      * eexists. split; [reflexivity|]. apply Forall2_app; [exact H1|]. constructor; [lia|].
        apply Forall_app in HM. destruct HM as [_ HM]. inversion_clear HM as [|? ? _ HM']. clear - Hs HM'.
        induction Hs as [|y m' s r _ _ IH]; [constructor|]. inversion_clear HM'. constructor; [lia|auto].
      * apply lexlt_app. cbn. left. lia.
      * intros d Hd Hlt Hlt'.
        destruct (lexlt_prefix p _ ((x + 1) :: map (fun _ => 0) s) d Hlt) as [(d' & -> & Hd')|Hgt];
          [|exact (lexlt_irr _ (lexlt_trans _ _ _ Hlt' Hgt))].
        apply (proj1 (lexlt_app p _ _)) in Hlt'. apply Forall2_app_inv_l in Hd. destruct Hd as (M1 & M2 & D1 & D2 & EM').
        assert (L2 : length M1 = length q) by (rewrite <- (Forall2_length D1); exact E3).
        assert (M1 = q /\ M2 = m :: r) as [-> ->].
        { clear - EM' L2. revert q EM' L2. induction M1 as [|u M1 IH]; intros [|v q] EM L1; cbn in *; try lia; auto.
          injection EM as -> EM. destruct (IH q EM ltac:(lia)) as [-> ->]. auto. }
        inversion D2 as [|y ? d2 ? Hy D3]; subst. cbn in Hd', Hlt'. destruct Hd' as [Hd'|[<- Hd']].
        -- destruct Hlt' as [|[-> Hlt']]; [lia|]. rewrite (map_const_eq 0 s r) in Hlt' by (apply (Forall2_length Hs)).
           exact (zeros_min r d2 D3 Hlt').
        -- exact (tuple_max r s d2 E4 D3 Hd').
    + left. change (0 =? 0) with true. cbv iota. split; [reflexivity|]. intros d Hd. apply (tuple_max M); assumption.
  - eexists. split; [reflexivity|]. clear -HM. induction HM; constructor; [lia|assumption].
  - intros d Hd. apply zeros_min, Hd.
Qed.

Theorem n_tuples_list_enum M : Forall (fun m => 1 <= m) M -> exists L, yields (n_tuples (len M) (RList M)) L /\
  StronglySorted lexlt L /\ (forall a, In a L <-> is_tuple M a).
Proof.
  intros HM. destruct (tuples_gen_enum M HM) as (L & HL & HR). exists L. split; [|exact HR].
  destruct HL as [N HN]. exists N. intros fuel Hf. rewrite <- (HN fuel Hf). unfold n_tuples, tup_radices. rewrite Z.eqb_refl.
  f_equal. rewrite zrange_cons by lia. cbn [map]. f_equal. apply map_const_eq. rewrite zrange_length. lia.
Qed.

Theorem n_tuples_int_enum n b : 0 <= n -> 1 <= b -> exists L, yields (n_tuples n (RInt b)) L /\
  StronglySorted lexlt L /\ (forall a, In a L <-> len a = n /\ Forall (fun x => 0 <= x < b) a).
Proof.
  intros Hn Hb. set (M := map (fun _ => b) (zrange 0 n)).
  assert (LM : len M = n) by (unfold M; rewrite map_length, zrange_length; lia).
  destruct (tuples_gen_enum M) as (L & HL & HS & HR).
  - apply Forall_forall. intros m Hm. apply in_map_iff in Hm. destruct Hm as (_ & <- & _). exact Hb.
  - exists L. split; [|split; [exact HS|]].
    + destruct HL as [N HN]. exists N. intros fuel Hf. rewrite <- (HN fuel Hf). unfold n_tuples, tup_radices. fold M. rewrite LM.
      f_equal. rewrite zrange_cons by lia. cbn [map]. f_equal. apply map_const_eq. rewrite zrange_length. lia.
    + intros a. rewrite HR. unfold is_tuple.
      assert (G : forall M', (forall m, In m M' -> m = b) -> forall a, Forall2 (fun x m => 0 <= x < m) a M' <-> length a = length M' /\ Forall (fun x => 0 <= x < b) a).
      { clear. induction M' as [|m M' IH]; intros Hm a0.
        - split; [inversion 1; subst; split; [reflexivity|constructor]|]. intros [H _]. destruct a0; [constructor|discriminate].
        - assert (m = b) by (apply Hm; left; reflexivity). subst m. split.
          + inversion 1 as [|x ? a1 ? Hx H1]; subst. apply IH in H1; [|intros; apply Hm; right; assumption].
            destruct H1 as [E F]. split; [cbn; lia|constructor; assumption].
          + intros [E F]. destruct a0 as [|x a1]; [discriminate|]. inversion_clear F. constructor; [assumption|].
            apply IH; [intros; apply Hm; right; assumption|]. cbn in E. split; [lia|assumption]. }
      rewrite G.
      * split; intros [E F]; split; try assumption; lia.
      * intros m Hm. apply in_map_iff in Hm. destruct Hm as (_ & <- & _). reflexivity.
Qed.
