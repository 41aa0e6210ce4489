(** * Maximum cliques by branch and bound *)
From Coq Require Import ZArith List Lia Bool Permutation.
From Verif Require Import Base Py Dict Lists Lists2 Graph_Model Graph_Spec Graph_Proofs Graph_Proofs2 Trav_Model Trav_Proofs Cliq_Model Cliq_Spec Cliq_Proofs Color_Model Color_Spec Color_Proofs MaxCliq_Model.
Import ListNotations.
Open Scope Z_scope.

Lemma weigh_perm wt a b : Permutation a b -> weigh wt a = weigh wt b.
Proof. unfold weigh. induction 1; cbn [fold_right]; lia. Qed.
Lemma weigh_app wt a b : weigh wt (a ++ b) = weigh wt a + weigh wt b.
Proof. unfold weigh. induction a as [|x a IH]; cbn [fold_right app]; lia. Qed.
Lemma weigh_one c : weigh one c = Z.of_nat (length c).
Proof. unfold weigh, one. induction c as [|x c IH]; cbn [fold_right length]; lia. Qed.

Lemma weigh_sub wt : forall b a, NoDup b -> NoDup a -> (forall x, In x b -> In x a) -> (forall x, In x a -> 0 <= wt x) -> weigh wt b <= weigh wt a.
Proof.
  induction b as [|x b IH]; intros a Nb Na H W.
  - clear -W. induction a as [|x a IH]; cbn; [lia|]. specialize (IH (fun y Hy => W y (or_intror Hy))). specialize (W x (or_introl eq_refl)). unfold weigh in *. cbn [fold_right] in *. lia.
  - inversion_clear Nb as [|? ? Nx Nb']. destruct (in_split x a (H x (or_introl eq_refl))) as (a1 & a2 & ->).
    assert (Pm : Permutation (a1 ++ x :: a2) (x :: a1 ++ a2)) by (symmetry; apply Permutation_middle).
    rewrite (weigh_perm wt _ _ Pm). pose proof (Permutation_NoDup Pm Na) as Na'. inversion_clear Na' as [|? ? Nx' Na''].
    assert (weigh wt b <= weigh wt (a1 ++ a2)).
    { apply IH; [exact Nb'|exact Na''| |].
      - intros y Hy. assert (Hy' : In y (x :: a1 ++ a2)) by (apply (Permutation_in _ Pm), H; right; exact Hy). destruct Hy' as [<-|Hy']; [contradiction|exact Hy'].
      - intros y Hy. apply W, (Permutation_in _ (Permutation_sym Pm)). right. exact Hy. }
    cbn [weigh fold_right]. unfold weigh in *. lia.
Qed.

(** The inner loop of [msearch] by itself. *)
Definition mloop (g : graph) (wt : Z -> Z) (largest : option (list (Z * Z))) (stop : bool)
   (rec : list Z -> Z -> list Z -> mstate -> mstate) (size : Z) (used : list Z) : list Z -> list Z -> mstate -> mstate :=
  fix loop (rest : list Z) (candidates : list Z) (st : mstate) : mstate :=
    match rest with
    | [] => st
    | u :: rest' =>
        match candidates with
        | [] => st
        | _ =>
            if size + fold_right (fun v t => wt v + t) 0 candidates <=? best_size st then st
            else if mem u candidates then
              if lim_cut largest u size (best_size st) then st
              else
                let candidates := discard candidates u in
                let st := rec (inter candidates (nbr g u)) (size + wt u) (used ++ [u]) st in
                if stop && was_found st then st else loop rest' candidates st
            else loop rest' candidates st
        end
    end.

Lemma msearch_S g wt largest stop vs f c size used st : msearch g wt largest stop vs (S f) c size used st =
  match c with
  | [] => if best_size st <? size then (size, used, true) else st
  | _ => mloop g wt largest stop (msearch g wt largest stop vs f) size used vs c st
  end.
Proof. reflexivity. Qed.

Section Search.
  Context (g : graph) (wt : Z -> Z) (stop : bool) (vs : list Z).
  Hypothesis Hg : undirected g.
  Hypothesis Nvs : NoDup vs.
  Hypothesis Wt : forall v, In v vs -> 0 <= wt v.

  Definition sub_clique (c Q : list Z) : Prop := clique g Q /\ forall x, In x Q -> In x c.

  (** [largest] bounds the cliques among v and the vertices after it, for the v of U. *)
  Definition lim_ok (largest : option (list (Z * Z))) (U : list Z) : Prop :=
    forall d, largest = Some d -> forall pre v post, vs = pre ++ v :: post -> In v U ->
      exists L, dget d v = Some L /\ forall Q, sub_clique (v :: post) Q -> weigh wt Q <= L.

  Definition post (c : list Z) (size : Z) (used : list Z) (st st' : mstate) : Prop :=
    best_size st <= best_size st' /\
    (stop = true /\ was_found st' = true \/ forall Q, sub_clique c Q -> size + weigh wt Q <= best_size st') /\
    (st' = st \/ exists Q, sub_clique c Q /\ st' = (size + weigh wt Q, used ++ Q, true) /\ best_size st < best_size st').

  Lemma clique_nil : clique g []. Proof. split; [constructor|split; [intros u []|intros u v []]]. Qed.

  Lemma sub_nil c : sub_clique c []. Proof. split; [apply clique_nil|intros x []]. Qed.
  Lemma sub_of_nil Q : sub_clique [] Q -> Q = []. Proof. intros (_ & H). destruct Q as [|x Q]; [reflexivity|]. destruct (H x (or_introl eq_refl)). Qed.

  Lemma clique_extend u c Q : vertex g u -> ~ In u c -> sub_clique (inter c (nbr g u)) Q -> sub_clique (u :: c) (u :: Q).
  Proof using Hg.
    intros Vu Nu ((N & V & E) & S). split; [|intros x [<-|Hx]; [left; reflexivity|right; apply S, inter_In in Hx; tauto]].
    split; [|split].
    - constructor; [|exact N]. intros H. apply S, inter_In in H. tauto.
    - intros x [<-|Hx]; [exact Vu|apply V, Hx].
    - assert (A : forall x, In x Q -> edge g u x) by (intros x Hx; apply S, inter_In in Hx as [_ Hx]; apply (nbr_In g), Hx).
      intros x y [<-|Hx] [<-|Hy] Nxy; [congruence|apply A, Hy|apply (esym g Hg), A, Hx|apply E; assumption].
  Qed.

  Lemma clique_split u c Q : sub_clique c Q -> In u Q -> exists Q', Permutation Q (u :: Q') /\ sub_clique (inter (discard c u) (nbr g u)) Q'.
  Proof using Hg.
    intros ((N & V & E) & S) Hu. apply in_split in Hu as (a & b & ->). exists (a ++ b). pose proof (Permutation_sym (Permutation_middle a b u)) as Pm.
    split; [exact Pm|]. pose proof (Permutation_NoDup Pm N) as N'. inversion_clear N' as [|? ? Nu Nab].
    assert (In' : forall x, In x (a ++ b) -> In x (a ++ u :: b) /\ x <> u).
    { intros x Hx. split; [apply (Permutation_in _ (Permutation_sym Pm)); right; exact Hx|intros ->; contradiction]. }
    split; [split; [exact Nab|split]|].
    - intros x Hx. apply V, In', Hx.
    - intros x y Hx Hy. apply E; apply In'; assumption.
    - intros x Hx. destruct (In' x Hx) as [H1 H2]. apply inter_In. split; [apply discard_In; split; [apply S, H1|exact H2]|].
      apply (nbr_In g), E; [apply in_or_app; right; left; reflexivity|exact H1|congruence].
  Qed.

  Section Lim.
    Context (largest : option (list (Z * Z))) (U : list Z).
    Hypothesis HL : lim_ok largest U.

    Lemma mloop_ok f rec size used :
      (forall c size used st, NoDup c -> (forall x, In x c -> In x vs /\ In x U /\ vertex g x) -> (length c < f)%nat -> post c size used st (rec c size used st)) ->
      forall rest pre c st, vs = pre ++ rest -> NoDup c -> (forall x, In x c -> In x rest /\ In x U /\ vertex g x) ->
      (c <> [] \/ size <= best_size st) -> (length c <= f)%nat -> post c size used st (mloop g wt largest stop rec size used rest c st).
    Proof.
      intros Hrec. induction rest as [|u rest IH]; intros pre c st Ev Nc Hc H0 HF; cbn [mloop].
      - destruct c as [|x c]; [|destruct (Hc x (or_introl eq_refl)) as ([] & _)].
        destruct H0 as [H0|H0]; [congruence|]. split; [lia|]. split; [right; intros Q HQ; apply sub_of_nil in HQ as ->; cbn; lia|left; reflexivity].
      - destruct c as [|x0 c0] eqn:Ec.
        { destruct H0 as [H0|H0]; [congruence|]. split; [lia|]. split; [right; intros Q HQ; apply sub_of_nil in HQ as ->; cbn; lia|left; reflexivity]. }
        rewrite <- Ec in *. assert (Nec : c <> []) by (rewrite Ec; discriminate). clear x0 c0 Ec H0.
        assert (Ivs : forall x, In x c -> In x vs) by (intros x Hx; rewrite Ev; apply in_or_app; right; apply Hc, Hx).
        change (fold_right (fun v t => wt v + t) 0 c) with (weigh wt c).
        destruct (Z.leb_spec (size + weigh wt c) (best_size st)) as [L|L].
        { split; [lia|]. split; [|left; reflexivity]. right. intros Q ((N & _) & S).
          assert (weigh wt Q <= weigh wt c) by (apply weigh_sub; [exact N|exact Nc|exact S|intros x Hx; apply Wt, Ivs, Hx]). lia. }
        destruct (mem u c) eqn:M.
        + apply mem_In in M. destruct (Hc u M) as (_ & Uu & Vu).
          unfold lim_cut at 1. destruct (match largest with Some d => _ | None => false end) eqn:LC.
          * split; [lia|]. split; [|left; reflexivity]. right. intros Q HQ. destruct largest as [d|] eqn:El; [|discriminate].
            destruct (HL d eq_refl pre u rest Ev Uu) as (Lm & Ed & HLm). rewrite Ed in LC. apply Z.leb_le in LC.
            assert (weigh wt Q <= Lm). { apply HLm. split; [apply HQ|]. intros x Hx. apply Hc, HQ, Hx. } lia.
          * cbv zeta. set (c' := discard c u). set (st1 := rec (inter c' (nbr g u)) (size + wt u) (used ++ [u]) st).
            assert (Nu : ~ In u c') by (unfold c'; rewrite discard_In; tauto).
            assert (Nc' : NoDup c') by (apply discard_nodup, Nc).
            assert (Lc : (length c' < length c)%nat) by (pose proof (without_len c u Nc M) as LL; unfold c', discard; unfold without in LL; lia).
            assert (Hc' : forall x, In x c' -> In x rest /\ In x U /\ vertex g x).
            { intros x Hx. apply discard_In in Hx as [Hx Nx]. destruct (Hc x Hx) as ([E|H] & H'); [congruence|]. split; assumption. }
            assert (P1 : post (inter c' (nbr g u)) (size + wt u) (used ++ [u]) st st1).
            { apply Hrec; [apply inter_nodup, Nc'| |pose proof (inter_len c' (nbr g u)); lia]. intros x Hx. apply inter_In in Hx as [Hx _]. destruct (Hc' x Hx) as (Hr & HU). split; [rewrite Ev; apply in_or_app; right; right; exact Hr|exact HU]. }
            destruct P1 as (A1 & B1 & C1).
            assert (C1' : st1 = st \/ exists Q, sub_clique c Q /\ st1 = (size + weigh wt Q, used ++ Q, true) /\ best_size st < best_size st1).
            { destruct C1 as [C1|(Q & HQ & E & Lt)]; [left; exact C1|right]. exists (u :: Q). split; [|split; [|exact Lt]].
              - pose proof (clique_extend u c' Q Vu Nu HQ) as (K1 & K2). split; [exact K1|]. intros x Hx. destruct (K2 x Hx) as [<-|K]; [exact M|]. apply discard_In in K. tauto.
              - rewrite E. cbn [weigh fold_right]. rewrite <- app_assoc. cbn [app]. f_equal. f_equal. unfold weigh. lia. }
            assert (Inc : (forall Q, sub_clique (inter c' (nbr g u)) Q -> size + wt u + weigh wt Q <= best_size st1) -> forall Q, sub_clique c Q -> In u Q -> size + weigh wt Q <= best_size st1).
            { intros B Q HQ Hu. destruct (clique_split u c Q HQ Hu) as (Q' & Pm & HQ'). rewrite (weigh_perm wt _ _ Pm). cbn [weigh fold_right]. specialize (B Q' HQ'). unfold weigh in *. lia. }
            destruct (stop && was_found st1) eqn:SF.
            -- apply andb_true_iff in SF as [S1 S2]. split; [exact A1|]. split; [left; split; [exact S1|exact S2]|exact C1'].
            -- destruct B1 as [[S1 S2]|B1]; [rewrite S1, S2 in SF; discriminate|].
               assert (Ev' : vs = (pre ++ [u]) ++ rest) by (rewrite <- app_assoc; exact Ev).
               assert (W0 : 0 <= wt u) by (apply Wt, Ivs, M).
               assert (Sz : size <= best_size st1) by (specialize (B1 [] (sub_nil _)); cbn in B1; lia).
               destruct (IH (pre ++ [u]) c' st1 Ev' Nc' Hc' (or_intror Sz) ltac:(lia)) as (A2 & B2 & C2).
               split; [lia|]. split.
               ++ destruct B2 as [B2|B2]; [left; exact B2|right]. intros Q HQ. destruct (in_dec Z.eq_dec u Q) as [Hu|Hu].
                  ** specialize (Inc B1 Q HQ Hu). lia.
                  ** apply B2. split; [apply HQ|]. intros x Hx. apply discard_In. split; [apply HQ, Hx|intros ->; contradiction].
               ++ destruct C2 as [C2|(Q & HQ & E & Lt)].
                  ** rewrite C2. exact C1'.
                  ** right. exists Q. split; [|split; [exact E|lia]]. split; [apply HQ|]. intros x Hx. apply HQ, discard_In in Hx. tauto.
        + apply mem_false in M.
          assert (Ev' : vs = (pre ++ [u]) ++ rest) by (rewrite <- app_assoc; exact Ev).
          apply (IH (pre ++ [u]) c st Ev' Nc); [|left; exact Nec|exact HF]. intros x Hx. destruct (Hc x Hx) as ([<-|H] & H'); [contradiction|split; assumption].
    Qed.

    Lemma msearch_ok : forall fuel c size used st, (length c < fuel)%nat -> NoDup c -> (forall x, In x c -> In x vs /\ In x U /\ vertex g x) ->
      post c size used st (msearch g wt largest stop vs fuel c size used st).
    Proof.
      induction fuel as [|fuel IH]; intros c size used st HF Nc Hc; [lia|]. rewrite msearch_S. destruct c as [|x0 c0] eqn:Ec.
      - destruct (Z.ltb_spec (best_size st) size) as [L|L].
        + split; [cbn; lia|]. split; [right; intros Q HQ; apply sub_of_nil in HQ as ->; cbn; lia|]. right. exists []. split; [apply sub_nil|]. split; [cbn; rewrite app_nil_r, Z.add_0_r; reflexivity|cbn; lia].
        + split; [lia|]. split; [right; intros Q HQ; apply sub_of_nil in HQ as ->; cbn; lia|left; reflexivity].
      - rewrite <- Ec in *. assert (Nec : c <> []) by (rewrite Ec; discriminate). clear x0 c0 Ec.
        apply (mloop_ok fuel) with (pre := []); [|reflexivity|exact Nc|exact Hc|left; exact Nec|lia].
        intros c' size' used' st' N' H' L'. apply IH; assumption.
    Qed.
  End Lim.

  Hypothesis Hl : loop_free g.
  Hypothesis Hvs : forall v, In v vs -> vertex g v.
  Hypothesis Unit : stop = true -> forall v, In v vs -> wt v <= 1.

  Lemma stages_ok : forall suffix pre, vs = pre ++ suffix ->
    let '(st, largest) := stages g wt stop vs suffix in
    sub_clique suffix (snd (fst st)) /\ best_size st = weigh wt (snd (fst st)) /\
    (forall Q, sub_clique suffix Q -> weigh wt Q <= best_size st) /\
    (forall p v post, suffix = p ++ v :: post -> exists L, dget largest v = Some L /\ forall Q, sub_clique (v :: post) Q -> weigh wt Q <= L).
  Proof.
    induction suffix as [|u rest IH]; intros pre Ev.
    - cbn [stages]. split; [apply sub_nil|]. split; [reflexivity|]. split; [intros Q HQ; apply sub_of_nil in HQ as ->; cbn; lia|]. intros p v post E. destruct p; discriminate.
    - assert (Ev' : vs = (pre ++ [u]) ++ rest) by (rewrite <- app_assoc; exact Ev). specialize (IH _ Ev'). cbn [stages].
      destruct (stages g wt stop vs rest) as [st largest]. destruct IH as (S1 & W1 & M1 & L1).
      assert (Nsuf : NoDup (u :: rest)) by (rewrite Ev in Nvs; apply NoDup_app_inv in Nvs; tauto).
      assert (Iu : In u vs) by (rewrite Ev; apply in_or_app; right; left; reflexivity).
      assert (Isuf : forall x, In x (u :: rest) -> In x vs) by (intros x Hx; rewrite Ev; apply in_or_app; right; exact Hx).
      assert (Nuu : ~ In u (nbr g u)) by (intros H; apply (nbr_In g) in H as (w & Hw); rewrite Hl in Hw; discriminate).
      set (cand := inter (u :: rest) (nbr g u)).
      assert (Hcand : forall x, In x cand <-> In x rest /\ edge g u x).
      { intros x. unfold cand. rewrite inter_In, (nbr_In g). cbn. split; [|tauto]. intros ([<-|H] & He); [|tauto]. apply (nbr_In g) in He. contradiction. }
      inversion_clear Nsuf as [|? ? Nu Nr].
      assert (HL : lim_ok (Some largest) rest).
      { intros d Ed p v post E Hv. inversion Ed; subst d. clear Ed. apply in_split in Hv as (r1 & r2 & Er).
        destruct (L1 r1 v r2 Er) as (L & EL & HLL). exists L. split; [exact EL|].
        assert (E2 : vs = (pre ++ [u] ++ r1) ++ v :: r2) by (rewrite Ev, Er, <- !app_assoc; reflexivity).
        assert (Epost : post = r2).
        { rewrite E in E2. clear -E2 Nvs E. rewrite E in Nvs. revert E2 Nvs. generalize (pre ++ [u] ++ r1) as q. clear. intros q. revert p. induction q as [|a q IHq]; intros p E N.
          - destruct p as [|b p]; cbn in *; [congruence|]. inversion E; subst. inversion_clear N as [|? ? N1 _]. exfalso. apply N1, in_or_app. right. left. reflexivity.
          - destruct p as [|b p]; cbn in *.
            + inversion E; subst. inversion_clear N as [|? ? N1 _]. exfalso. apply N1, in_or_app. right. left. reflexivity.
            + inversion E; subst. inversion_clear N as [|? ? _ N1]. apply (IHq p H1 N1). }
        subst post. exact HLL. }
      destruct (msearch_ok (Some largest) rest HL (S (length vs)) cand (wt u) [u] (fst st, false)) as (A & B & C).
      { assert (L : (length cand <= length vs)%nat); [|lia]. apply NoDup_incl_length; [apply inter_nodup; constructor; assumption|]. intros x Hx. apply Hcand in Hx as [Hx _]. apply Isuf. right. exact Hx. }
      { apply inter_nodup. constructor; assumption. }
      { intros x Hx. apply Hcand in Hx as [Hx _]. split; [apply Isuf; right; exact Hx|]. split; [exact Hx|]. apply Hvs, Isuf. right. exact Hx. }
      set (st' := msearch g wt (Some largest) stop vs (S (length vs)) cand (wt u) [u] (fst st, false)) in *. fold cand in A, B, C |- *.
      change (best_size (fst st, false)) with (best_size st) in *.
      assert (MAX : forall Q, sub_clique (u :: rest) Q -> weigh wt Q <= best_size st').
      { intros Q HQ. destruct (in_dec Z.eq_dec u Q) as [Hu|Hu].
        - destruct (clique_split u (u :: rest) Q HQ Hu) as (Q' & Pm & HQ'). rewrite (weigh_perm wt _ _ Pm). cbn [weigh fold_right]. fold (weigh wt Q').
          assert (HQc : sub_clique cand Q').
          { split; [apply HQ'|]. intros x Hx. apply HQ' in Hx. apply inter_In in Hx as [Hx He]. apply discard_In in Hx as [Hx _]. apply inter_In. split; assumption. }
          destruct B as [[S2 F2]|B]; [|apply B, HQc].
          assert (HQr : sub_clique rest Q') by (split; [apply HQ'|]; intros x Hx; apply HQc, Hcand in Hx; tauto).
          specialize (M1 Q' HQr). pose proof (Unit S2 u Iu). destruct C as [C|(Q2 & _ & _ & Lt)]; [|lia].
          rewrite C in F2. discriminate.
        - assert (HQr : sub_clique rest Q).
          { split; [apply HQ|]. intros x Hx. destruct (proj2 HQ x Hx) as [<-|H]; [contradiction|exact H]. }
          specialize (M1 Q HQr). lia. }
      split; [|split; [|split]].
      + destruct C as [C|(Q & HQ & E & _)].
        * rewrite C. cbn [fst snd]. split; [apply S1|]. intros x Hx. right. apply S1, Hx.
        * rewrite E. cbn [fst snd app]. assert (X : sub_clique (u :: rest) (u :: Q)).
          { apply clique_extend; [apply Hvs, Iu|exact Nu|]. split; [apply HQ|]. intros x Hx. apply HQ, Hcand in Hx. apply inter_In. rewrite (nbr_In g). exact Hx. }
          exact X.
      + destruct C as [C|(Q & HQ & E & _)]; [rewrite C; exact W1|rewrite E; reflexivity].
      + exact MAX.
      + intros p v post E. destruct p as [|b p]; cbn [app] in E; inversion E; subst.
        * exists (best_size st'). split; [cbn [dget]; rewrite Z.eqb_refl; reflexivity|exact MAX].
        * cbn [dget]. assert (Nbv : b <> v) by (intros ->; apply Nu, in_or_app; right; left; reflexivity). destruct (Z.eqb_spec b v); [congruence|]. apply (L1 p v post eq_refl).
  Qed.
End Search.

Lemma maximum_of_weight g size c : maximum_weight_clique_of g one size c -> maximum_clique g size c.
Proof.
  intros (A & B & C). split; [exact A|]. rewrite weigh_one in B. split; [exact B|]. intros c' Hc'. specialize (C c' Hc'). rewrite weigh_one in C. exact C.
Qed.

Lemma stages_max g wt stop vs : undirected g -> loop_free g -> Permutation vs (dkeys g) -> (forall v, vertex g v -> 0 <= wt v) ->
  (stop = true -> forall v, vertex g v -> wt v <= 1) ->
  let r := fst (fst (stages g wt stop vs vs)) in maximum_weight_clique_of g wt (fst r) (snd r).
Proof.
  intros Hg Hl Pv W0 W1. assert (Nvs : NoDup vs) by (apply (Permutation_NoDup (Permutation_sym Pv)), Hg).
  assert (Hvs : forall v, In v vs <-> vertex g v) by (intros v; split; apply Permutation_in; [exact Pv|symmetry; exact Pv]).
  pose proof (stages_ok g wt stop vs Hg Nvs (fun v H => W0 v (proj1 (Hvs v) H)) Hl (fun v H => proj1 (Hvs v) H) (fun S v H => W1 S v (proj1 (Hvs v) H)) vs [] eq_refl) as K.
  destruct (stages g wt stop vs vs) as [[[m c] fd] largest]. cbn [fst snd best_size] in *. destruct K as (K1 & K2 & K3 & _).
  split; [apply K1|]. split; [exact K2|]. intros c' Hc'. apply K3. split; [exact Hc'|]. intros x Hx. apply Hvs. apply Hc', Hx.
Qed.

Lemma induced_perm ord g : undirected g -> (forall k l, Permutation (ord k l) l) -> exists vs, vertices_induced ord g = Ret vs /\ Permutation vs (dkeys g).
Proof.
  intros Hg Ho. destruct (induced_order_ok ord Ho (length (dkeys g)) g Hg) as (l & R & _ & P); [unfold dkeys; rewrite map_length; reflexivity|].
  exists l. split; assumption.
Qed.

Lemma pardalos_ok g ord : undirected g -> (forall k l, Permutation (ord k l) l) ->
  exists size c, pardalos g ord = Ret (size, c) /\ maximum_clique g size c.
Proof.
  intros Hg Ho. destruct (induced_perm ord g Hg Ho) as (vs & E & Pv). unfold pardalos. rewrite E. cbn [bind].
  assert (Nvs : NoDup vs) by (apply (Permutation_NoDup (Permutation_sym Pv)), Hg).
  assert (Hvs : forall v, In v vs <-> vertex g v) by (intros v; split; apply Permutation_in; [exact Pv|symmetry; exact Pv]).
  destruct (msearch_ok g one false vs Hg (fun v _ => ltac:(unfold one; lia)) None vs (fun d E => ltac:(discriminate)) (S (length vs)) vs 0 [] (0, [], false)) as (A & B & C).
  - lia.
  - exact Nvs.
  - intros x Hx. split; [exact Hx|]. split; [exact Hx|apply Hvs, Hx].
  - destruct (msearch g one None false vs (S (length vs)) vs 0 [] (0, [], false)) as [[m c] fd]. cbn [fst snd best_size] in *.
    exists m, c. split; [reflexivity|]. apply maximum_of_weight. destruct B as [[B _]|B]; [discriminate|].
    assert (MAX : forall c', clique g c' -> weigh one c' <= m).
    { intros c' Hc'. apply (B c'). split; [exact Hc'|]. intros x Hx. apply Hvs, Hc', Hx. }
    destruct C as [C|(Q & HQ & E' & _)].
    + inversion C; subst. split; [apply clique_nil|]. split; [reflexivity|exact MAX].
    + inversion E'; subst. cbn [app] in *. split; [apply HQ|]. split; [reflexivity|exact MAX].
Qed.

Lemma flat_map_perm {A B} (f h : A -> list B) l : (forall x, Permutation (f x) (h x)) -> Permutation (flat_map f l) (flat_map h l).
Proof. intros H. induction l as [|x l IH]; [constructor|]. cbn [flat_map]. apply Permutation_app; [apply H|exact IH]. Qed.

Lemma ostergard_order_ok g : undirected g -> loop_free g -> g <> [] -> exists vs, ostergard_order g = Ret vs /\ Permutation vs (dkeys g).
Proof.
  intros Hg Hl Ne. unfold ostergard_order, greedy_sequential. cbn [Z.leb Z.compare]. unfold greedy_once.
  destruct (greedy_map_total g Hg Hl (rev (vertices_by_degree g))) as (cm & k & E & PM & K0 & _).
  - rewrite <- Permutation_rev. apply sort_by_perm.
  - exact Ne.
  - change (1 <=? 1) with true. cbv iota. rewrite E. cbn [bind Z.eqb andb Pos.eqb]. eexists. split; [reflexivity|].
    rewrite <- Permutation_rev. rewrite (flat_map_perm _ (fun c => c)) by (intros c; apply sort_by_perm).
    rewrite flat_map_concat_map, map_id. apply (classes_ok g Hg 0 k cm); [lia|exact PM].
Qed.

Lemma ostergard_ok g : undirected g -> loop_free g -> g <> [] -> exists size c, ostergard g = Ret (size, c) /\ maximum_clique g size c.
Proof.
  intros Hg Hl Ne. destruct (ostergard_order_ok g Hg Hl Ne) as (vs & E & Pv). unfold ostergard. rewrite E. cbn [bind].
  pose proof (stages_max g one true vs Hg Hl Pv) as K. destruct (fst (fst (stages g one true vs vs))) as [size c]. exists size, c. split; [reflexivity|].
  apply maximum_of_weight, K; intros; unfold one; lia.
Qed.

Lemma maximum_weight_clique_ok g ord wm : undirected g -> loop_free g -> (forall l, Permutation (ord l) l) ->
  (forall v, vertex g v -> exists w, dget wm v = Some w /\ 0 <= w) ->
  exists w c, maximum_weight_clique g ord (Some wm) = Ret (w, c) /\
    maximum_weight_clique_of g (fun v => match dget wm v with Some w => w | None => 0 end) w c.
Proof.
  intros Hg Hl Ho Hw. unfold maximum_weight_clique.
  replace (forallb (dmem wm) (dkeys g)) with true.
  2:{ symmetry. apply forallb_forall. intros v Hv. destruct (Hw v Hv) as (w & E & _). unfold dmem. rewrite E. reflexivity. }
  set (wt := fun v => match dget wm v with Some w => w | None => 0 end). set (vs := sort_by _ (ord (dkeys g))).
  assert (Pv : Permutation vs (dkeys g)) by (unfold vs; rewrite sort_by_perm; apply Ho).
  pose proof (stages_max g wt false vs Hg Hl Pv) as K. destruct (fst (fst (stages g wt false vs vs))) as [w c]. exists w, c. split; [reflexivity|].
  apply K; [|discriminate]. intros v Hv. unfold wt. destruct (Hw v Hv) as (x & -> & H). exact H.
Qed.
