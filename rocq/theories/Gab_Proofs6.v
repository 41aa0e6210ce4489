(** * Proofs: the loop of gabow *)
From Coq Require Import ZArith List Bool Lia Permutation Sorting.Sorted.
From Verif Require Import Base Py Lists Dict Gen Graph_Model Graph_Spec Graph_Proofs Graph_Proofs2 UF_Model UF_Spec Trav_Model Trav_Spec Paths_Model MST_Model MST_Spec MST_Proofs
  Gab_Spec Gab_Model Gab_Proofs Gab_Proofs2 Gab_Proofs3 Gab_Proofs4 Gab_Proofs5.
Import ListNotations.
Open Scope Z_scope.

Lemma ordpairs_perm {A : Type} (P : A -> A -> Prop) (Sy : forall x y, P x y -> P y x) l l' : Permutation l l' -> ForallOrdPairs P l -> ForallOrdPairs P l'.
Proof.
  induction 1 as [|x l l' Pm IH|x y l|l l' l'' _ IH1 _ IH2]; intros H; [exact H| | |auto].
  - inversion H as [|? ? H1 H2]; subst. constructor; [rewrite Forall_forall in *; intros z Hz; apply H1, (Permutation_in _ (Permutation_sym Pm) Hz)|apply IH, H2].
  - inversion H as [|? ? H1 H2]; subst. inversion H2 as [|? ? H3 H4]; subst. inversion H1 as [|? ? H5 H6]; subst. constructor; [constructor; [apply Sy, H5|exact H3]|]. constructor; assumption.
Qed.

Lemma ordpairs_cons {A : Type} (P : A -> A -> Prop) x l : ForallOrdPairs P (x :: l) -> (forall y, In y l -> P x y) /\ ForallOrdPairs P l.
Proof. intros H. inversion H as [|? ? H1 H2]; subst. rewrite Forall_forall in H1. auto. Qed.

Lemma norm_app A B : norm (A ++ B) = norm A ++ norm B.
Proof. apply map_app. Qed.
Lemma NoDup_snoc {A : Type} (l : list A) x : NoDup l -> ~ In x l -> NoDup (l ++ [x]).
Proof. intros N H. apply (Permutation_NoDup (Permutation_cons_append l x)). constructor; assumption. Qed.
Lemma sorted_snoc {A : Type} (P : A -> A -> Prop) l x : StronglySorted P l -> (forall y, In y l -> P y x) -> StronglySorted P (l ++ [x]).
Proof. induction 1 as [|y l S IH Fy]; intros H; cbn [app]; [constructor; constructor|]. constructor; [apply IH; intros z Iz; apply H; right; exact Iz|]. rewrite Forall_forall in *. intros z Iz. apply in_app_or in Iz as [Iz|[<-|[]]]; [apply Fy, Iz|apply H; left; reflexivity]. Qed.

Section Loop.
  Context (push : list entry -> entry -> outcome (list entry)) (pop : list entry -> outcome (entry * list entry)) (heap : list entry -> Prop).
  Hypothesis Hpush : forall h x, heap h -> (exists h', push h x = Ret h' /\ Permutation h' (x :: h) /\ heap h') \/ (push h x = Raise TypeError /\ exists y, In y h /\ entry_tie x y).
  Hypothesis Hpop : forall h, heap h -> h <> [] ->
       (exists x h', pop h = Ret (x, h') /\ Permutation h (x :: h') /\ heap h' /\ forall y, In y h' -> le_inf (e_weight x) (e_weight y)) \/
       (pop h = Raise TypeError /\ exists x y, In x h /\ In y h /\ entry_tie x y).
  Context (g : graph) (root : Z).
  Hypothesis Hg : undirected g.
  Notation V := (map fst g).
  Context (edges : list (Z * Z)).
  Hypothesis Ed : forall x y, In (x, y) edges -> In x V /\ In y V /\ edge g x y /\ x <= y.
  Hypothesis EdN : NoDup edges.
  Hypothesis EdS : StronglySorted (fun a b => arc_key g a <= arc_key g b) edges.
  Hypothesis Ec : forall x y, x <= y -> edge g x y -> In (x, y) edges.
  Notation class := (class g).

  (** What holds of the trees yielded so far. *)
  Definition facts (Y : list (Z * list (Z * Z))) : Prop :=
    (forall W T, In (W, T) Y -> tree_of g W T) /\ NoDup (map snd Y) /\ StronglySorted (fun a b => fst a <= fst b) Y /\
    (forall W T, tree_of g W T -> ~ In T (map snd Y) -> forall W1 T1, In (W1, T1) Y -> W1 <= W).

  Definition good (Y : list (Z * list (Z * Z))) (x : entry) : Prop :=
    exists F D Wx b, fok g (e_father x) F /\ rooted V root F D /\ (forall v, In v V -> v <> root -> edge g v (F v)) /\ tree_of g Wx (Tx g root F) /\
      class (e_in x) (e_out x) (Tx g root F) /\ (forall T W, class (e_in x) (e_out x) T -> tree_of g W T -> Wx <= W) /\
      NoDup (norm (e_in x)) /\ (forall e, In e (e_out x) -> In e edges \/ In (swap e) edges) /\
      In (Tx g root F) (map snd Y) /\ (forall T, In T (map snd Y) -> class (e_in x) (e_out x) T -> T = Tx g root F) /\
      best_spec g root F D edges (e_in x) (e_out x) b /\ (e_weight x, e_e x, e_f x) = (add_inf Wx (fst (fst b)), snd (fst b), snd b).

  Definition apart (x y : entry) : Prop := forall T, class (e_in x) (e_out x) T -> class (e_in y) (e_out y) T -> False.

  Definition linv (Y : list (Z * list (Z * Z))) (h : list entry) : Prop :=
    heap h /\ (forall x, In x h -> good Y x) /\ ForallOrdPairs apart h /\ (forall T W, tree_of g W T -> exists x, In x h /\ class (e_in x) (e_out x) T) /\ h <> [].

  (** A tree of a class that has not been yielded weighs at least as much as the entry says. *)
  Lemma unyielded Y x T W : good Y x -> class (e_in x) (e_out x) T -> tree_of g W T -> ~ In T (map snd Y) -> le_inf (e_weight x) (Some W).
  Proof using Hg Ec.
    intros (F & D & Wx & b & Fo & R & Te & HW & Cx & Min & N & HO & IY & U & (B1 & B2) & E) CT HT NT. injection E as E _ _. rewrite E.
    destruct (second_best g Hg root F D R Te edges Ec (e_in x) (e_out x) Wx T W Cx HW Min CT HT) as (f & z & Ok & L); [intros ->; contradiction|]. specialize (B1 f z Ok). unfold best_le in B1. destruct (fst (fst b)); cbn in *; [lia|exact B1].
  Qed.

  Definition final (Y l : list (Z * list (Z * Z))) (fuel : nat) (j : Z) (k : option Z) (st : gstatus) : Prop :=
    facts (Y ++ l) /\ (length l <= fuel)%nat /\ (forall k0, k = Some k0 -> j + Z.of_nat (length l) <= Z.max j k0) /\
    match st with
    | GEnded => (forall W T, tree_of g W T -> In T (map snd (Y ++ l))) \/ exists k0, k = Some k0 /\ j + Z.of_nat (length l) = Z.max j k0
    | GMore => length l = fuel
    | GRaised e => e = TypeError
    | GStuck => False
    end.

  Lemma loop_ok : forall fuel Y j k h, facts Y -> linv Y h -> let '(l, st) := gabow_loop push pop g edges root fuel j k h [] in final Y l fuel j k st.
  Proof using Hpush Hpop Hg Ed EdN EdS Ec.
    assert (Stop : forall Y fuel j k st, facts Y -> match st with
      | GEnded => (forall W T, tree_of g W T -> In T (map snd Y)) \/ exists k0, k = Some k0 /\ k0 <= j
      | GMore => fuel = O
      | GRaised e => e = TypeError
      | GStuck => False
      end -> final Y [] fuel j k st).
    { intros Y fuel j k st HF Hs. unfold final. rewrite app_nil_r. cbn [length]. split; [exact HF|]. split; [lia|]. split; [intros k0 _; lia|]. destruct st; auto. destruct Hs as [Hs|(k0 & -> & L)]; [left; exact Hs|right; exists k0; split; [reflexivity|lia]]. }
    induction fuel as [|fuel IH]; intros Y j k h HY (Hh & Hgd & Hap & Hco & Hne); cbn [gabow_loop].
    1: destruct (match k with Some k0 => k0 <=? j | None => false end) eqn:Ek; apply Stop; auto; destruct k as [k0|]; [|discriminate]; apply Z.leb_le in Ek; right; exists k0; auto.
    destruct (match k with Some k0 => k0 <=? j | None => false end) eqn:Ek; [apply Stop; [exact HY|]; destruct k as [k0|]; [|discriminate]; apply Z.leb_le in Ek; right; exists k0; auto|].
    assert (Lk : forall k0, k = Some k0 -> j < k0) by (intros k0 ->; apply Z.leb_gt in Ek; exact Ek).
    destruct (Hpop h Hh Hne) as [(x & h1 & Ep & Pm & Hh1 & Le)|(Ep & _)]; rewrite Ep; [|apply Stop; [exact HY|reflexivity]].
    assert (Ix : In x h) by (apply (Permutation_in _ (Permutation_sym Pm)); left; reflexivity).
    assert (Inh : forall y, In y h <-> y = x \/ In y h1). { intros y. split; [intros I; apply (Permutation_in _ Pm) in I; destruct I as [I|I]; auto|intros I; apply (Permutation_in _ (Permutation_sym Pm)); destruct I as [->|I]; [left; reflexivity|right; exact I]]. }
    destruct (Hgd x Ix) as (F & D & Wx & b & Fo & R & Te & HW & Cx & Min & N & HO & IY & U & (B1 & B2) & E). pose proof (Hgd x Ix) as Gx.
    destruct B2 as [Eb|(f & z & Ok & Eb)].
    - (* no tree is left *)
      subst b. cbn in E. injection E as E1 E2 E3. rewrite E1. apply Stop; [exact HY|]. left. intros W T HT. destruct (Hco T W HT) as (y & Iy & Cy).
      destruct (in_dec (list_eq_dec (fun a b : Z * Z => match pair_eqb a b as q return pair_eqb a b = q -> {a = b} + {a <> b} with true => fun Q => left (proj1 (pair_eqb_eq a b) Q) | false => fun Q => right (fun E => eq_true_false_abs _ (proj2 (pair_eqb_eq a b) E) Q) end eq_refl)) T (map snd Y)) as [I|I]; [exact I|exfalso].
      pose proof (unyielded Y y T W (Hgd y Iy) Cy HT I) as Q. apply Inh in Iy as [->|Iy]; [rewrite E1 in Q; exact Q|]. specialize (Le y Iy). rewrite E1 in Le. destruct (e_weight y); [exact Le|exact Q].
    - subst b. cbn [fst snd add_inf] in E. injection E as E1 E2 E3. rewrite E1, E2, E3. destruct Ok as (Fr0 & Iz & Nz & INz & Sz). pose proof (conj Fr0 (conj Iz (conj Nz (conj INz Sz)))) as Ok. destruct f as (fx & fy). destruct (Ed fx fy (proj1 Fr0)) as (Ifx & Ify & Ef & Lf).
      destruct (exchanged g Hg root F D R Te edges (e_in x) (e_out x) Wx (fx, fy) z Cx HW Ok Ifx Ify Ef) as (A & B & EAB & ST & HT' & C2 & C1).
      set (T' := canon (A ++ (fx, fy) :: B)) in *. set (W' := Wx + cand g F (fx, fy) z) in *.
      destruct (exchange_tree_ok g root Hg (e_father x) F D z (fx, fy) A B W' Fo R EAB ST HT') as (nf & F' & D' & Ex & Fo' & R' & Te' & ET'). fold T' in ET'. rewrite Ex. rewrite (father_edges_ok g root Hg nf F' D' Fo' R'). rewrite ET'.
      assert (Ze : In (ordered z (F z)) (Tx g root F)) by (apply Tx_father; assumption).
      assert (Zn : ~ In (ordered z (F z)) T') by (apply C2; apply in_or_app; right; left; reflexivity).
      assert (CxT : class (e_in x) (e_out x) T'). { destruct C2 as (C2a & C2b & C2c). split; [exact C2a|]. split; [exact C2b|]. intros a b0 I. apply C2c, in_or_app. left. exact I. }
      assert (New : ~ In T' (map snd Y)) by (intros I; apply Zn; rewrite (U T' I CxT); exact Ze).
      destruct HY as (Y1 & Y2 & Y3 & Y4).
      assert (HY' : facts (Y ++ [(W', T')])).
      { split; [|split; [|split]].
        - intros W T I. apply in_app_or in I as [I|[I|[]]]; [apply Y1, I|]. injection I as <- <-. exact HT'.
        - rewrite map_app. apply NoDup_snoc; assumption.
        - apply sorted_snoc; [exact Y3|]. intros (W1 & T1) I. cbn [fst]. apply (Y4 W' T' HT' New W1 T1 I).
        - intros W T HT NT W1 T1 I. rewrite map_app, in_app_iff in NT. assert (NT1 : ~ In T (map snd Y)) by tauto. apply in_app_or in I as [I|[I|[]]]; [apply (Y4 W T HT NT1 W1 T1 I)|]. injection I as <- <-.
          destruct (Hco T W HT) as (y & Iy & Cy). pose proof (unyielded Y y T W (Hgd y Iy) Cy HT NT1) as Q. apply Inh in Iy as [->|Iy]; [rewrite E1 in Q; exact Q|]. specialize (Le y Iy). rewrite E1 in Le. destruct (e_weight y); [cbn [le_inf] in *; lia|contradiction]. }
      assert (Raise : final Y [(W', T')] (S fuel) j k (GRaised TypeError)) by (split; [exact HY'|]; split; [cbn; lia|]; split; [intros k0 Q; specialize (Lk k0 Q); cbn [length]; lia|reflexivity]).
      unfold gabow_push. cbn [fst snd]. rewrite (arc_weight_ok g fx fy Ef). cbn [bind]. rewrite (arc_weight_ok g z (F z) (Te z Iz Nz)). cbn [bind].
      assert (EW : W' - arc_key g (fx, fy) + arc_key g (z, F z) = Wx) by (unfold W', cand; lia). rewrite EW.
      assert (Nz' : NoDup (norm (e_in x ++ [(z, F z)]))).
      { rewrite norm_app. apply NoDup_snoc; [exact N|]. intros I. apply in_map_iff in I as ((a & b0) & Q & I). cbn [fst snd] in Q. assert (INb root F (e_in x) z = true); [|congruence]. apply (INb_In g root F (e_in x) z Iz). split; [exact Nz|]. exists a, b0. auto. }
      destruct (find_exchange_ok g root Hg F D (e_father x) R Fo Te edges Ed EdN EdS (e_in x ++ [(z, F z)]) (e_out x) (proj1 (proj2 C1)) Nz' HO) as (b1 & Eb1 & Sb1). rewrite Eb1. cbn [bind]. destruct b1 as ((ew1 & e1) & f1).
      set (x1 := Entry (add_inf Wx ew1) e1 f1 (e_father x) (e_in x ++ [(z, F z)]) (e_out x)) in *.
      destruct (Hpush h1 x1 Hh1) as [(h2 & Eh2 & Pm2 & Hh2)|(Eh2 & _)]; rewrite Eh2; cbn [bind]; [|exact Raise].
      assert (HO' : forall e, In e (e_out x ++ [(z, F z)]) -> In e edges \/ In (swap e) edges).
      { intros e I. apply in_app_or in I as [I|[I|[]]]; [apply HO, I|]. subst e. unfold swap. cbn [fst snd]. destruct (Te z Iz Nz) as (w & Ew). destruct (Z.le_gt_cases z (F z)); [left; apply Ec; [assumption|exists w; exact Ew]|right; apply Ec; [lia|]]. exists w. destruct Hg as (_ & _ & _ & Sy). rewrite Sy. exact Ew. }
      assert (CI2 : forall a b0, In (a, b0) (e_in x) -> In (ordered a b0) (Tx g root F')) by (intros a b0 I; rewrite ET'; apply C2, I).
      destruct (find_exchange_ok g root Hg F' D' nf R' Fo' Te' edges Ed EdN EdS (e_in x) (e_out x ++ [(z, F z)]) CI2 N HO') as (b2 & Eb2 & Sb2). rewrite Eb2. cbn [bind]. destruct b2 as ((ew2 & e2) & f2).
      set (x2 := Entry (add_inf W' ew2) e2 f2 nf (e_in x) (e_out x ++ [(z, F z)])) in *.
      destruct (Hpush h2 x2 Hh2) as [(h3 & Eh3 & Pm3 & Hh3)|(Eh3 & _)]; rewrite Eh3; cbn [bind]; [|exact Raise].
      assert (P3 : Permutation h3 (x2 :: x1 :: h1)) by (rewrite Pm3, Pm2; reflexivity).
      assert (Sub1 : forall T, class (e_in x1) (e_out x1) T -> class (e_in x) (e_out x) T /\ In (ordered z (F z)) T). { intros T (Q1 & Q2 & Q3). split; [split; [exact Q1|]; split; [intros a b0 I; apply Q2, in_or_app; left; exact I|exact Q3]|apply Q2, in_or_app; right; left; reflexivity]. }
      assert (Sub2 : forall T, class (e_in x2) (e_out x2) T -> class (e_in x) (e_out x) T /\ ~ In (ordered z (F z)) T). { intros T (Q1 & Q2 & Q3). split; [split; [exact Q1|]; split; [exact Q2|intros a b0 I; apply Q3, in_or_app; left; exact I]|apply Q3, in_or_app; right; left; reflexivity]. }
      assert (G1 : good (Y ++ [(W', T')]) x1).
      { exists F, D, Wx, (ew1, e1, f1). split; [exact Fo|]. split; [exact R|]. split; [exact Te|]. split; [exact HW|]. split; [exact C1|]. split; [intros T W CT; apply Min, Sub1, CT|]. split; [exact Nz'|]. split; [exact HO|]. split; [rewrite map_app, in_app_iff; left; exact IY|]. split; [|split; [exact Sb1|reflexivity]].
        intros T I CT. apply Sub1 in CT as (CT & Q). rewrite map_app, in_app_iff in I. destruct I as [I|[I|[]]]; [apply U; assumption|]. cbn in I. subst T. contradiction. }
      assert (G2 : good (Y ++ [(W', T')]) x2).
      { exists F', D', W', (ew2, e2, f2). split; [exact Fo'|]. split; [exact R'|]. split; [exact Te'|]. rewrite ET'. split; [exact HT'|]. split; [exact C2|]. split; [|split; [exact N|]; split; [exact HO'|]; split; [rewrite map_app, in_app_iff; right; left; reflexivity|]; split; [|split; [exact Sb2|reflexivity]]].
        - intros T W CT HT. apply Sub2 in CT as (CT & Q). destruct (second_best g Hg root F D R Te edges Ec (e_in x) (e_out x) Wx T W Cx HW Min CT HT) as (f' & z' & Ok' & L'); [intros ->; contradiction|]. specialize (B1 f' z' Ok'). unfold best_le in B1. cbn in B1. unfold W'. lia.
        - intros T I CT. apply Sub2 in CT as (CT & Q). rewrite map_app, in_app_iff in I. destruct I as [I|[I|[]]]; [|cbn in I; congruence]. rewrite (U T I CT) in Q. contradiction. }
      assert (Gh : forall y, In y h1 -> good (Y ++ [(W', T')]) y).
      { intros y Iy. pose proof (Hgd y (proj2 (Inh y) (or_intror Iy))) as (Fy & Dy & Wy & by_ & P1 & P2 & P4 & P5 & P6 & P7 & P8 & P9 & P10 & P11 & P12). exists Fy, Dy, Wy, by_. split; [exact P1|]. split; [exact P2|]. split; [exact P4|]. split; [exact P5|]. split; [exact P6|]. split; [exact P7|]. split; [exact P8|]. split; [exact P9|]. split; [rewrite map_app, in_app_iff; left; exact P10|]. split; [|exact P12].
        intros T I CT. rewrite map_app, in_app_iff in I. destruct I as [I|[I|[]]]; [apply P11; assumption|]. cbn in I. subst T. exfalso. pose proof (ordpairs_perm apart (fun a b0 H T H1 H2 => H T H2 H1) h (x :: h1) Pm Hap) as Q. apply ordpairs_cons in Q as (Q1 & _). apply (Q1 y Iy T' CxT CT). }
      assert (I' : linv (Y ++ [(W', T')]) h3).
      { split; [exact Hh3|]. split; [|split; [|split]].
        - intros y Iy. apply (Permutation_in _ P3) in Iy. destruct Iy as [<-|[<-|Iy]]; auto.
        - apply (ordpairs_perm apart (fun a b0 H T H1 H2 => H T H2 H1) (x2 :: x1 :: h1) h3 (Permutation_sym P3)). pose proof (ordpairs_perm apart (fun a b0 H T H1 H2 => H T H2 H1) h (x :: h1) Pm Hap) as Q. apply ordpairs_cons in Q as (Q1 & Q2).
          constructor; [constructor; [intros T H1 H2; apply Sub2 in H1; apply Sub1 in H2; destruct H1, H2; contradiction|]|constructor; [|exact Q2]]; rewrite Forall_forall; intros y Iy T H1 H2; [apply Sub2 in H1|apply Sub1 in H1]; apply (Q1 y Iy T (proj1 H1) H2).
        - intros T W HT. destruct (Hco T W HT) as (y & Iy & Cy). apply Inh in Iy as [->|Iy]; [|exists y; split; [apply (Permutation_in _ (Permutation_sym P3)); right; right; exact Iy|exact Cy]]. destruct Cy as (Cy1 & Cy2 & Cy3). destruct (pair_mem (ordered z (F z)) T) eqn:Q.
          + apply pair_mem_In in Q. exists x1. split; [apply (Permutation_in _ (Permutation_sym P3)); right; left; reflexivity|]. split; [exact Cy1|]. split; [|exact Cy3]. intros a b0 I. apply in_app_or in I as [I|[I|[]]]; [apply Cy2, I|]. injection I as <- <-. exact Q.
          + exists x2. split; [apply (Permutation_in _ (Permutation_sym P3)); left; reflexivity|]. split; [exact Cy1|]. split; [exact Cy2|]. intros a b0 I. apply in_app_or in I as [I|[I|[]]]; [apply Cy3, I|]. injection I as <- <-. intros I. apply pair_mem_In in I. congruence.
        - intros ->. apply Permutation_nil in P3. discriminate. }
      specialize (IH (Y ++ [(W', T')]) (j + 1) k h3 HY' I'). destruct (gabow_loop push pop g edges root fuel (j + 1) k h3 []) as (l & st). destruct IH as (I1 & I2 & I3 & I4). rewrite <- app_assoc in I1. cbn [app] in I1. split; [exact I1|]. split; [cbn [length]; lia|].
      assert (Lj : forall k0, k = Some k0 -> Z.max (j + 1) k0 = Z.max j k0) by (intros k0 Q; specialize (Lk k0 Q); lia).
      split; [intros k0 Q; specialize (I3 k0 Q); rewrite (Lj k0 Q) in I3; cbn [length]; lia|]. destruct st; [|cbn [length]; lia|exact I4|exact I4]. rewrite <- app_assoc in I4. cbn [app] in I4. destruct I4 as [I4|(k0 & Q & I4)]; [left; exact I4|right; exists k0; split; [exact Q|]]. rewrite (Lj k0 Q) in I4. cbn [length]. lia.
  Qed.
End Loop.
