(** * Independent sets *)
From Coq Require Import ZArith List Lia Bool Permutation Sorting.Sorted.
From Verif Require Import Base Py Dict Lists Lists2 Gen Graph_Model Graph_Spec Graph_Proofs Graph_Proofs2 Graph_Props Trav_Model Trav_Proofs Cliq_Model Cliq_Spec Cliq_Proofs Color_Model Color_Spec Color_Proofs MaxCliq_Model MaxCliq_Proofs Indep_Model Indep_Spec.
Import ListNotations.
Open Scope Z_scope.

Lemma filter_le (f : Z -> bool) l : (length (filter f l) <= length l)%nat.
Proof. induction l as [|x l IH]; cbn [filter length]; [lia|]. destruct (f x); cbn [length]; lia. Qed.

Definition iloop (g : graph) (rec : list Z -> list Z -> Z * list Z -> Z -> Z * list Z) (size : Z) : list Z -> list Z -> Z * list Z -> Z * list Z :=
  fix loop (rest : list Z) (allowed : list Z) (best : Z * list Z) : Z * list Z :=
     match rest with
     | [] => best
     | u :: rest' =>
         match allowed with
         | [] => best
         | _ =>
             if size + Z.of_nat (length allowed) <=? fst best then best
             else if mem u allowed then
               let allowed := discard allowed u in
               loop rest' allowed (rec (diff allowed (nbr g u)) rest best u)
             else loop rest' allowed best
         end
     end.

Lemma ibacktrack_S g f allowed size rest used best : ibacktrack g (S f) allowed size rest used best =
  iloop g (fun a r b u => ibacktrack g f a (size + 1) r (used ++ [u]) b) size rest allowed (if fst best <? size then (size, used) else best).
Proof. reflexivity. Qed.

Section Search.
  Context (g : graph).
  Hypothesis Hg : undirected g.
  Hypothesis Hl : loop_free g.

  Definition sub_indep (c Q : list Z) : Prop := independent_set g Q /\ forall x, In x Q -> In x c.

  Lemma indep_nil : independent_set g []. Proof. split; [constructor|split; [intros u []|intros u v []]]. Qed.

  Lemma indep_extend u c Q : vertex g u -> ~ In u c -> sub_indep (diff c (nbr g u)) Q -> sub_indep (u :: c) (u :: Q).
  Proof using Hg Hl.
    intros Vu Nu ((N & V & E) & S). split; [|intros x [<-|Hx]; [left; reflexivity|right; apply S, diff_In in Hx; tauto]].
    split; [|split].
    - constructor; [|exact N]. intros H. apply S, diff_In in H. tauto.
    - intros x [<-|Hx]; [exact Vu|apply V, Hx].
    - assert (A : forall x, In x Q -> ~ edge g u x) by (intros x Hx; apply S, diff_In in Hx as [_ Hx]; intros H; apply Hx, (nbr_In g), H).
      intros x y [<-|Hx] [<-|Hy]; [intros (w & H); rewrite Hl in H; discriminate|apply A, Hy|intros H; apply (esym g Hg) in H; revert H; apply A, Hx|apply E; assumption].
  Qed.

  Lemma indep_split u c Q : sub_indep c Q -> In u Q -> exists Q', Permutation Q (u :: Q') /\ sub_indep (diff (discard c u) (nbr g u)) Q'.
  Proof using Hg Hl.
    intros ((N & V & E) & S) Hu. apply in_split in Hu as (a & b & ->). exists (a ++ b). pose proof (Permutation_sym (Permutation_middle a b u)) as Pm.
    split; [exact Pm|]. pose proof (Permutation_NoDup Pm N) as N'. inversion_clear N' as [|? ? Nu Nab].
    assert (In' : forall x, In x (a ++ b) -> In x (a ++ u :: b) /\ x <> u).
    { intros x Hx. split; [apply (Permutation_in _ (Permutation_sym Pm)); right; exact Hx|intros ->; contradiction]. }
    split; [split; [exact Nab|split]|].
    - intros x Hx. apply V, In', Hx.
    - intros x y Hx Hy. apply E; apply In'; assumption.
    - intros x Hx. destruct (In' x Hx) as [H1 H2]. apply diff_In. split; [apply discard_In; split; [apply S, H1|exact H2]|].
      intros H. apply (nbr_In g) in H. revert H. apply E; [apply in_or_app; right; left; reflexivity|exact H1].
  Qed.

  Definition ipost (c : list Z) (size : Z) (used : list Z) (best best' : Z * list Z) : Prop :=
    fst best <= fst best' /\
    (forall Q, sub_indep c Q -> size + Z.of_nat (length Q) <= fst best') /\
    (best' = best \/ exists Q, sub_indep c Q /\ best' = (size + Z.of_nat (length Q), used ++ Q)).

  Lemma iloop_ok f rec size used :
    (forall c rest b u, NoDup c -> (forall x, In x c -> In x rest /\ vertex g x) -> (length c < f)%nat -> ipost c (size + 1) (used ++ [u]) b (rec c rest b u)) ->
    forall rest c b, NoDup c -> (forall x, In x c -> In x rest /\ vertex g x) -> size <= fst b -> (length c <= f)%nat ->
    ipost c size used b (iloop g rec size rest c b).
  Proof using Hg Hl.
    intros Hrec. induction rest as [|u rest IH]; intros c b Nc Hc H0 HF; cbn [iloop].
    - destruct c as [|x c]; [|destruct (Hc x (or_introl eq_refl)) as ([] & _)].
      split; [lia|]. split; [|left; reflexivity]. intros [|x Q] (_ & HQ); [cbn; lia|destruct (HQ x (or_introl eq_refl))].
    - destruct c as [|x0 c0] eqn:Ec.
      { split; [lia|]. split; [|left; reflexivity]. intros [|x Q] (_ & HQ); [cbn; lia|destruct (HQ x (or_introl eq_refl))]. }
      rewrite <- Ec in *. clear x0 c0 Ec.
      destruct (Z.leb_spec (size + Z.of_nat (length c)) (fst b)) as [L|L].
      { split; [lia|]. split; [|left; reflexivity]. intros Q ((N & _) & S).
        assert (length Q <= length c)%nat by (apply NoDup_incl_length; [exact N|exact S]). lia. }
      destruct (mem u c) eqn:M.
      + apply mem_In in M. destruct (Hc u M) as (_ & Vu). cbv zeta. set (c' := discard c u).
        set (b1 := rec (diff c' (nbr g u)) (u :: rest) b u).
        assert (Nu : ~ In u c') by (unfold c'; rewrite discard_In; tauto).
        assert (Nc' : NoDup c') by (apply discard_nodup, Nc).
        assert (Lc : (length c' < length c)%nat) by (pose proof (without_len c u Nc M) as LL; unfold c', discard; unfold without in LL; lia).
        assert (Hc' : forall x, In x c' -> In x rest /\ vertex g x).
        { intros x Hx. apply discard_In in Hx as [Hx Nx]. destruct (Hc x Hx) as ([E|H] & H'); [congruence|]. split; assumption. }
        assert (P1 : ipost (diff c' (nbr g u)) (size + 1) (used ++ [u]) b b1).
        { apply Hrec; [apply diff_nodup, Nc'| |pose proof (filter_le (fun v => negb (mem v (nbr g u))) c'); unfold diff; lia]. intros x Hx. apply diff_In in Hx as [Hx _]. destruct (Hc' x Hx) as (Hr & HU). split; [right; exact Hr|exact HU]. }
        destruct P1 as (A1 & B1 & C1). destruct (IH c' b1 Nc' Hc') as (A2 & B2 & C2); [lia|lia|].
        split; [lia|]. split.
        * intros Q HQ. destruct (in_dec Z.eq_dec u Q) as [Hu|Hu].
          -- destruct (indep_split u c Q HQ Hu) as (Q' & Pm & HQ'). apply B1 in HQ'. rewrite (Permutation_length Pm). cbn [length]. lia.
          -- apply B2. split; [apply HQ|]. intros x Hx. apply discard_In. split; [apply HQ, Hx|intros ->; contradiction].
        * destruct C2 as [C2|(Q & HQ & E)].
          -- rewrite C2. destruct C1 as [C1|(Q & HQ & E)]; [left; exact C1|right]. exists (u :: Q). split.
             ++ pose proof (indep_extend u c' Q Vu Nu HQ) as (K1 & K2). split; [exact K1|]. intros x Hx. destruct (K2 x Hx) as [<-|K]; [exact M|]. apply discard_In in K. tauto.
             ++ rewrite E. rewrite <- app_assoc. cbn [app length]. f_equal. lia.
          -- right. exists Q. split; [|exact E]. split; [apply HQ|]. intros x Hx. apply HQ in Hx. apply discard_In in Hx. tauto.
      + apply mem_false in M. apply IH; [exact Nc| |exact H0|exact HF]. intros x Hx. destruct (Hc x Hx) as ([<-|H] & H'); [contradiction|split; assumption].
  Qed.

  Lemma ibacktrack_ok : forall fuel c size rest used best, (length c < fuel)%nat -> NoDup c -> (forall x, In x c -> In x rest /\ vertex g x) ->
    ipost c size used best (ibacktrack g fuel c size rest used best).
  Proof using Hg Hl.
    induction fuel as [|fuel IH]; intros c size rest used best HF Nc Hc; [lia|]. rewrite ibacktrack_S.
    set (b0 := if fst best <? size then (size, used) else best).
    assert (B0 : fst best <= fst b0 /\ size <= fst b0) by (unfold b0; destruct (Z.ltb_spec (fst best) size); cbn [fst]; lia).
    destruct (iloop_ok fuel (fun a r b u => ibacktrack g fuel a (size + 1) r (used ++ [u]) b) size used) with (rest := rest) (c := c) (b := b0) as (A & B & C); [|exact Nc|exact Hc|lia|lia|].
    { intros c' rest' b u Nc' Hc' L. apply IH; assumption. }
    split; [lia|]. split; [exact B|]. destruct C as [C|C]; [|right; exact C]. rewrite C. unfold b0. destruct (Z.ltb_spec (fst best) size); [|left; reflexivity].
    right. exists []. split; [split; [apply indep_nil|intros x []]|]. rewrite app_nil_r. cbn [length]. f_equal. lia.
  Qed.

  Lemma decreasing_perm : Permutation (decreasing_degree g) (dkeys g).
  Proof using. unfold decreasing_degree. eapply Permutation_trans; [apply sort_by_perm|]. apply zsort_perm. Qed.

  Lemma is_branch_and_bound_ok : maximum_independent g (fst (is_branch_and_bound g)) (snd (is_branch_and_bound g)).
  Proof using Hg Hl.
    unfold is_branch_and_bound. cbv zeta. set (vs := decreasing_degree g).
    assert (V : forall x, In x vs <-> vertex g x) by (intros x; split; apply Permutation_in; [|symmetry]; apply decreasing_perm).
    destruct (ibacktrack_ok (S (length vs)) vs 0 vs [] (0, [])) as (A & B & C).
    - lia.
    - eapply Permutation_NoDup; [symmetry; apply decreasing_perm|apply Hg].
    - intros x Hx. split; [exact Hx|apply V, Hx].
    - destruct C as [C|(Q & HQ & C)]; rewrite C in *; cbn [fst snd] in *.
      + split; [apply indep_nil|]. split; [reflexivity|]. intros c Hc. specialize (B c). rewrite Z.add_0_l in B. apply B. split; [exact Hc|]. intros x Hx. apply V, Hc, Hx.
      + split; [apply HQ|]. split; [reflexivity|]. intros c Hc. apply (B c). split; [exact Hc|]. intros x Hx. apply V, Hc, Hx.
  Qed.
End Search.

(** ** greedy *)
Lemma least_degree_aux g l : forall m, let r := fold_left (fun m u => if degree0 g u <? m then degree0 g u else m) l m in
  r <= m /\ (forall u, In u l -> r <= degree0 g u) /\ (r = m \/ exists u, In u l /\ degree0 g u = r).
Proof.
  induction l as [|x l IH]; intros m; cbn [fold_left]; cbv zeta; [split; [lia|split; [intros u []|left; reflexivity]]|].
  destruct (IH (if degree0 g x <? m then degree0 g x else m)) as (A & B & C). destruct (Z.ltb_spec (degree0 g x) m) as [L|L].
  - split; [lia|]. split; [intros u [<-|Hu]; [exact A|apply B, Hu]|]. right. destruct C as [->|(u & Hu & E)]; [exists x; split; [left|]; reflexivity|exists u; split; [right; exact Hu|exact E]].
  - split; [exact A|]. split; [intros u [<-|Hu]; [lia|apply B, Hu]|]. destruct C as [C|(u & Hu & E)]; [left; exact C|right; exists u; split; [right; exact Hu|exact E]].
Qed.

Lemma degree_small g u : undirected g -> loop_free g -> vertex g u -> degree0 g u < Z.of_nat (length (dkeys g)).
Proof.
  intros Hg Hl Hu. destruct (C55_neighbors g u Hg Hu) as (l & _ & N & In_l & D). destruct (C55_vertices_by_degree g) as (_ & _ & D0). rewrite (D0 u Hu) in D. injection D as ->.
  assert ((length (u :: l) <= length (dkeys g))%nat); [|cbn [length] in *; lia]. apply NoDup_incl_length.
  - constructor; [|exact N]. intros H. apply In_l in H as (w & H). rewrite Hl in H. discriminate.
  - intros x [<-|Hx]; [exact Hu|]. apply In_l in Hx. destruct Hg as (_ & _ & H & _). apply (H u x Hx).
Qed.

Section Greedy.
  Context (pick : list Z -> list Z -> Z) (ord : list Z -> list Z) (g : graph).
  Hypothesis Hp : forall s l, l <> [] -> In (pick s l) l.
  Hypothesis Ho : forall l, Permutation (ord l) l.
  Hypothesis Hg : undirected g.
  Hypothesis Hl : loop_free g.

  Definition ginv (h : graph) (s : list Z) : Prop :=
    undirected h /\ independent_set g s /\ (forall x, vertex h x <-> vertex g x /\ ~ In x s /\ forall u, In u s -> ~ edge g u x) /\
    (forall x y, vertex h x -> vertex h y -> weight h x y = weight g x y).

  Lemma ginv_step h s v : ginv h s -> vertex h v -> exists nb, neighbors h v = Ret nb /\
    ginv (delete_vertices (delete_vertex h v) (ord nb)) (s ++ [v]) /\
    (length (dkeys (delete_vertices (delete_vertex h v) (ord nb))) < length (dkeys h))%nat.
  Proof using Ho Hg Hl.
    intros (Uh & (Ns & Vs & Es) & Vh & Wh) Hv. destruct (C55_neighbors h v Uh Hv) as (nb & E & Nn & In_n & _). exists nb. split; [exact E|].
    assert (U1 : undirected (delete_vertex h v)) by (apply delete_vertex_undirected, Uh).
    destruct (apply_op_ok h (OpDeleteVertex v) Uh) as (_ & V1 & W1). cbn [apply_op] in V1, W1.
    destruct (delete_vertices_ok (ord nb) _ U1) as (U2 & V2 & W2). set (h2 := delete_vertices (delete_vertex h v) (ord nb)) in *.
    assert (Io : forall x, In x (ord nb) <-> edge h v x).
    { intros x. rewrite <- In_n. split; apply Permutation_in; [|symmetry]; apply Ho. }
    assert (Ev : forall x, vertex h x -> (edge h v x <-> edge g v x)) by (intros x Hx; unfold edge; rewrite Wh by assumption; reflexivity).
    assert (Hv' := proj1 (Vh v) Hv). destruct Hv' as (Vgv & Nv & Av).
    assert (V3 : forall x, vertex h2 x <-> vertex h x /\ x <> v /\ ~ edge g v x).
    { intros x. rewrite V2, V1, Io. split; [intros ((A & B) & C)|intros (A & B & C)].
      - split; [exact A|split; [exact B|]]. rewrite <- (Ev x A). exact C.
      - split; [split; assumption|]. rewrite (Ev x A). exact C. }
    split; [split; [exact U2|split; [|split]]|].
    - split; [|split].
      + apply NoDup_app_intro; [exact Ns|constructor; [intros []|constructor]|]. intros x Hx [<-|[]]. contradiction.
      + intros x Hx. apply in_app_iff in Hx as [Hx|[<-|[]]]; [apply Vs, Hx|exact Vgv].
      + intros x y Hx Hy. apply in_app_iff in Hx, Hy. destruct Hx as [Hx|[<-|[]]], Hy as [Hy|[<-|[]]].
        * apply Es; assumption.
        * apply Av, Hx.
        * intros H. apply (esym g Hg) in H. revert H. apply Av, Hy.
        * intros (w & H). rewrite Hl in H. discriminate.
    - intros x. rewrite V3, Vh. split.
      + intros ((A & B & C) & D & F). split; [exact A|]. split.
        * intros H. apply in_app_iff in H as [H|[H|[]]]; [contradiction|congruence].
        * intros u Hu. apply in_app_iff in Hu as [Hu|[<-|[]]]; [apply C, Hu|exact F].
      + intros (A & B & C). split; [split; [exact A|split]|split].
        * intros H. apply B, in_or_app. left. exact H.
        * intros u Hu. apply C, in_or_app. left. exact Hu.
        * intros ->. apply B, in_or_app. right. left. reflexivity.
        * apply C, in_or_app. right. left. reflexivity.
    - intros x y Hx Hy. apply V2 in Hx as [Hx1 Hx2], Hy as [Hy1 Hy2]. rewrite (proj2 (W2 x y)) by assumption.
      apply V1 in Hx1 as [Hx1 Hx3], Hy1 as [Hy1 Hy3]. rewrite (proj2 (W1 x y)) by assumption. apply Wh; assumption.
    - assert (L : (length (v :: dkeys h2) <= length (dkeys h))%nat); [|cbn [length] in L; lia]. apply NoDup_incl_length.
      + constructor; [|apply U2]. intros H. apply V3 in H. tauto.
      + intros x [<-|Hx]; [exact Hv|]. apply V3 in Hx. apply Hx.
  Qed.

  Lemma greedy_loop_ok : forall fuel h s, ginv h s -> (length (dkeys h) <= fuel)%nat ->
    exists s', greedy_loop pick ord fuel h s = Ret s' /\ maximal_independent_set g s'.
  Proof using Hp Ho Hg Hl.
    assert (Done : forall h s, ginv h s -> (forall x, ~ vertex h x) -> maximal_independent_set g s).
    { intros h s (_ & Hs & Vh & _) Em. split; [exact Hs|]. intros v Hv Nv.
      destruct (existsb (fun u => mem v (nbr g u)) s) eqn:X.
      - apply existsb_exists in X as (u & Hu & M). exists u. split; [exact Hu|]. apply (nbr_In g), mem_In, M.
      - exfalso. apply (Em v), Vh. split; [exact Hv|split; [exact Nv|]]. intros u Hu H. assert (existsb (fun u => mem v (nbr g u)) s = true); [|congruence].
        apply existsb_exists. exists u. split; [exact Hu|]. apply mem_In, (nbr_In g), H. }
    induction fuel as [|fuel IH]; intros h s Inv L; cbn [greedy_loop].
    - exists s. split; [reflexivity|]. apply (Done h); [exact Inv|]. intros x Hx. unfold vertex in Hx. unfold dkeys in L. destruct (map fst h); [destruct Hx|cbn in L; lia].
    - assert (Io : forall x, In x (ord (dkeys h)) <-> vertex h x) by (intros x; split; apply Permutation_in; [|symmetry]; apply Ho).
      destruct (ord (dkeys h)) as [|v0 vs] eqn:Eo.
      { exists s. split; [reflexivity|]. apply (Done h); [exact Inv|]. intros x Hx. apply Io in Hx. destruct Hx. }
      rewrite <- Eo in *. assert (Uh := proj1 Inv).
      assert (Lh : loop_free h).
      { intros u. destruct (weight h u u) as [w|] eqn:W; [|reflexivity]. destruct Inv as (_ & _ & _ & Wh).
        assert (Vu : vertex h u). { destruct Uh as (_ & _ & H & _). apply (H u u). exists w. exact W. } rewrite <- W, Wh by assumption. apply Hl. }
      set (l := filter (fun u => degree0 h u =? least_degree h) (ord (dkeys h))).
      assert (Ne : l <> []).
      { destruct (least_degree_aux h (dkeys h) (Z.of_nat (length (dkeys h)))) as (A & B & C). fold (least_degree h) in A, B, C.
        assert (V0 : vertex h v0) by (apply Io; rewrite Eo; left; reflexivity).
        destruct C as [C|(u & Hu & E)].
        - pose proof (degree_small h v0 Uh Lh V0). specialize (B v0 V0). lia.
        - intros H. assert (X : In u l) by (apply filter_In; split; [apply Io, Hu|apply Z.eqb_eq, E]). rewrite H in X. destruct X. }
      assert (Hv : vertex h (pick s l)) by (apply Io, (filter_In (fun u => degree0 h u =? least_degree h)), Hp, Ne).
      destruct l as [|a l'] eqn:El; [congruence|]. rewrite <- El in *.
      destruct (ginv_step h s (pick s l) Inv Hv) as (nb & E & Inv' & L'). cbv zeta. rewrite E. cbn [bind]. apply IH; [exact Inv'|lia].
  Qed.

  Lemma is_greedy_ok : exists c, is_greedy pick ord g = Ret (Z.of_nat (length c), c) /\ maximal_independent_set g c /\ StronglySorted Z.lt c.
  Proof using Hp Ho Hg Hl.
    destruct (greedy_loop_ok (length g) g []) as (s & E & (N & V & I1) & M).
    - split; [exact Hg|]. split; [apply indep_nil|]. split; [|reflexivity]. intros x. split; [intros H; split; [exact H|split; [intros []|intros u []]]|tauto].
    - unfold dkeys. rewrite map_length. lia.
    - exists (zsort s). unfold is_greedy. rewrite E. cbn [bind]. rewrite zsort_length. split; [reflexivity|]. split; [split; [split; [|split]|]|].
      + eapply Permutation_NoDup; [symmetry; apply zsort_perm|exact N].
      + intros u Hu. apply V, (zsort_In u s), Hu.
      + intros u v Hu Hv. apply I1; apply zsort_In; assumption.
      + intros v Hv Nv. destruct (M v Hv) as (u & Hu & H); [intros H; apply Nv, zsort_In, H|]. exists u. split; [apply zsort_In, Hu|exact H].
      + apply zsort_strict, N.
  Qed.
End Greedy.

(** ** culberson *)
Lemma swap_ends_perm l : Permutation (swap_ends l) l.
Proof.
  destruct l as [|x r]; [constructor|]. cbn [swap_ends]. destruct (rev r) as [|y m] eqn:E.
  - assert (r = []) by (rewrite <- (rev_involutive r), E; reflexivity). subst r. reflexivity.
  - assert (Er : r = rev m ++ [y]) by (rewrite <- (rev_involutive r), E; reflexivity). rewrite Er.
    eapply Permutation_trans; [constructor; symmetry; apply Permutation_cons_append|]. eapply Permutation_trans; [apply perm_swap|]. constructor. apply Permutation_cons_append.
Qed.

Section Culberson.
  Context (ord : list Z -> list Z) (dg : list (Z * Z)).
  Hypothesis Ho : forall l, Permutation (ord l) l.
  Hypothesis Hd : forall v d, dget dg v = Some d -> 0 <= d.

  Definition wd (v : Z) : Z := match dget dg v with Some d => d | None => 0 end.

  Lemma indset_ok : forall fuel h, undirected h -> loop_free h -> (forall v, vertex h v -> exists d, dget dg v = Some d) -> (length h < fuel)%nat ->
    exists s, indset ord dg fuel h = Ret (Z.of_nat (length s), weigh wd s, s) /\ independent_set h s /\ 0 <= weigh wd s /\ (weigh wd s = 0 -> s = []) /\
      (forall v r, swap_ends (vertices_by_degree h) = v :: r -> wd v <= weigh wd s).
  Proof using Ho Hd.
    induction fuel as [|fuel IH]; intros h Uh Lh Dh L; [lia|]. cbn [indset].
    assert (Pv : Permutation (vertices_by_degree h) (map fst h)) by apply C55_vertices_by_degree.
    destruct (vertices_by_degree h) as [|v0 vs0] eqn:Ev.
    { exists []. cbn [length weigh fold_right]. split; [reflexivity|]. split; [apply indep_nil|]. split; [lia|]. split; [reflexivity|discriminate]. }
    rewrite <- Ev in *. set (vs := vertices_by_degree h) in *. set (xs := firstn (cutoff (length vs)) (swap_ends vs)).
    assert (Hxs : forall v, In v xs -> vertex h v).
    { intros v Hv. unfold vertex. apply (Permutation_in _ Pv), (Permutation_in _ (swap_ends_perm vs)).
      unfold xs in Hv. revert Hv. generalize (swap_ends vs), (cutoff (length vs)). intros l n Hv. revert n Hv. induction l as [|a l IHl]; intros [|n] Hv; [destruct Hv|destruct Hv|destruct Hv|].
      destruct Hv as [<-|Hv]; [left; reflexivity|right; apply (IHl n Hv)]. }
    set (f := fun (st : Z * Z * list Z) (v : Z) => _).
    destruct (foldM_inv f (fun pre st => exists s, st = (Z.of_nat (length s), weigh wd s, s) /\ independent_set h s /\ 0 <= weigh wd s /\ (weigh wd s = 0 -> s = []) /\ forall v, In v pre -> wd v <= weigh wd s) xs (0, 0, [])) as (st & E & s & -> & R).
    - exists []. split; [reflexivity|]. split; [apply indep_nil|]. split; [cbn; lia|]. split; [reflexivity|intros v []].
    - intros pre v post st Ex (s & -> & Hs & P0 & Z0 & M0). unfold f.
      assert (Vv : vertex h v) by (apply Hxs; rewrite Ex; apply in_or_app; right; left; reflexivity).
      destruct (Dh v Vv) as (d & Ed). assert (Wd : wd v = d) by (unfold wd; rewrite Ed; reflexivity). unfold dgetM at 1. rewrite Ed. cbn [bind].
      destruct (C55_remove_closed_neighborhood ord h v Ho Uh Vv) as (h' & Eh & Uh' & Vh' & Wh'). rewrite Eh. cbn [bind].
      assert (Lh' : loop_free h').
      { intros u. destruct (weight h' u u) as [w|] eqn:W; [|reflexivity].
        assert (Vu : vertex h' u). { destruct Uh' as (_ & _ & H & _). apply (H u u). exists w. exact W. } rewrite <- W, Wh' by assumption. apply Lh. }
      destruct (IH h' Uh' Lh') as (s' & E' & (N' & V' & I') & P' & Z' & _).
      + intros u Hu. apply Dh, Vh', Hu.
      + assert (LL : (length (v :: dkeys h') <= length (dkeys h))%nat).
        { apply NoDup_incl_length; [constructor; [|apply Uh']|]. { intros H. apply Vh' in H. tauto. } intros x [<-|Hx]; [exact Vv|]. apply Vh' in Hx. apply Hx. }
        cbn [length] in LL. unfold dkeys in LL. rewrite !map_length in LL. lia.
      + rewrite E'. cbn [bind]. eexists. split; [reflexivity|].
        destruct (Z.ltb_spec (weigh wd s) (weigh wd s' + d)) as [Lt|Ge]; [|exists s; split; [reflexivity|]; split; [exact Hs|]; split; [assumption|]; split; [assumption|]; intros x Hx; apply in_app_iff in Hx as [Hx|[<-|[]]]; [apply M0, Hx|rewrite Wd; lia]].
        exists (s' ++ [v]). rewrite weigh_app, app_length. assert (Wv : weigh wd [v] = d) by (cbn [weigh fold_right]; unfold wd; rewrite Ed; lia). rewrite Wv.
        split; [f_equal; cbn [length]; f_equal; lia|]. split; [|split; [lia|split; [pose proof (Hd v d Ed); lia|intros x Hx; apply in_app_iff in Hx as [Hx|[<-|[]]]; [specialize (M0 x Hx); lia|rewrite Wd; lia]]]].
        assert (A : forall x, In x s' -> vertex h x /\ ~ edge h v x /\ x <> v) by (intros x Hx; apply Vh', V', Hx).
        split; [|split].
        * apply NoDup_app_intro; [exact N'|constructor; [intros []|constructor]|]. intros x Hx [<-|[]]. apply A in Hx. tauto.
        * intros x Hx. apply in_app_iff in Hx as [Hx|[<-|[]]]; [apply A, Hx|exact Vv].
        * intros x y Hx Hy. apply in_app_iff in Hx, Hy. destruct Hx as [Hx|[<-|[]]], Hy as [Hy|[<-|[]]].
          -- intros (w & H). rewrite <- Wh' in H by (apply V'; assumption). apply (I' x y Hx Hy). exists w. exact H.
          -- intros H. apply (esym h Uh) in H. revert H. apply A, Hx.
          -- apply A, Hy.
          -- intros (w & H). rewrite Lh in H. discriminate.
    - exists s. split; [exact E|]. destruct R as (R1 & R2 & R3 & R4). split; [exact R1|]. split; [exact R2|]. split; [exact R3|].
      intros v r Er. apply R4. unfold xs. rewrite Er. unfold cutoff. destruct (500 <=? _)%nat; [left; reflexivity|]. destruct (200 <=? _)%nat; [left; reflexivity|]. destruct (10 <=? _)%nat; left; reflexivity.
  Qed.
End Culberson.

Lemma edge_vertex g u v : edge g u v -> vertex g u.
Proof. intros (w & H). unfold weight in H. destruct (dget g u) as [a|] eqn:E; [|discriminate]. apply dget_Some_In in E. unfold vertex. apply (in_map fst) in E. exact E. Qed.

Lemma swap_ends_max g : (exists v, vertex g v) -> exists m r, swap_ends (vertices_by_degree g) = m :: r /\ forall v, vertex g v -> degree0 g v <= degree0 g m.
Proof.
  intros (v0 & V0). destruct (C55_vertices_by_degree g) as (P & Srt & _). remember (vertices_by_degree g) as l eqn:El.
  assert (K : forall v, vertex g v -> In v l) by (intros v; apply Permutation_in; symmetry; exact P).
  destruct l as [|x r]; [destruct (K v0 V0)|]. cbn [swap_ends]. destruct (rev r) as [|y m] eqn:E.
  - assert (r = []) by (rewrite <- (rev_involutive r), E; reflexivity). subst r. exists x, []. split; [reflexivity|]. intros v Hv. destruct (K v Hv) as [->|[]]. lia.
  - assert (Er : r = rev m ++ [y]) by (rewrite <- (rev_involutive r), E; reflexivity). exists y. eexists. split; [reflexivity|]. intros v Hv. apply K in Hv.
    assert (F : forall l, StronglySorted (fun u v => degree0 g u <= degree0 g v) (l ++ [y]) -> forall v, In v (l ++ [y]) -> degree0 g v <= degree0 g y).
    { clear. induction l as [|a l IH]; intros S v Hv; [destruct Hv as [->|[]]; lia|]. cbn [app] in *. inversion_clear S as [|? ? S1 S2]. destruct Hv as [<-|Hv]; [|apply IH; assumption].
      rewrite Forall_forall in S2. apply S2, in_or_app. right. left. reflexivity. }
    rewrite Er in Srt, Hv. change (x :: rev m ++ [y]) with ((x :: rev m) ++ [y]) in Srt, Hv. apply (F _ Srt v Hv).
Qed.

Lemma dget_degrees g v : vertex g v -> dget (map (fun u => (u, degree0 g u)) (dkeys g)) v = Some (degree0 g v).
Proof.
  unfold vertex, dkeys. induction (map fst g) as [|x l IH]; intros H; [destruct H|]. cbn [map dget]. destruct (Z.eqb_spec x v) as [->|N]; [reflexivity|].
  destruct H as [H|H]; [congruence|apply IH, H].
Qed.

Lemma degree0_nonneg g v : 0 <= degree0 g v. Proof. unfold degree0. destruct (dget g v); lia. Qed.

Lemma degree0_pos g u v : edge g u v -> 0 < degree0 g u.
Proof.
  intros (w & H). unfold weight in H. unfold degree0. destruct (dget g u) as [[|p a]|]; [discriminate|cbn [length]; lia|discriminate].
Qed.

Lemma culberson_ok ord g : (forall l, Permutation (ord l) l) -> undirected g -> loop_free g ->
  exists c, culberson ord g = Ret (Z.of_nat (length c), c) /\ independent_set g c /\ ((forall u v, ~ edge g u v) -> c = []) /\ ((exists u v, edge g u v) -> c <> []).
Proof.
  intros Ho Hg Hl. set (dg := map (fun u => (u, degree0 g u)) (dkeys g)).
  assert (Hd : forall v d, dget dg v = Some d -> 0 <= d).
  { intros v d H. apply dget_Some_In in H. unfold dg in H. apply in_map_iff in H as (x & E & _). injection E as _ <-. apply degree0_nonneg. }
  destruct (indset_ok ord dg Ho Hd (S (length g)) g Hg Hl) as (s & E & Hs & _ & Z0 & M0).
  - intros v Hv. exists (degree0 g v). apply dget_degrees, Hv.
  - lia.
  - exists s. unfold culberson. fold dg. rewrite E. cbn [bind]. split; [reflexivity|]. split; [exact Hs|]. split.
    2:{ intros (u & v & He) ->. destruct (swap_ends_max g) as (m & r & Es & Hm); [exists u; apply (edge_vertex g u v He)|]. specialize (M0 m r Es). cbn [weigh fold_right] in M0.
      assert (Vu : vertex g u) by (apply (edge_vertex g u v He)). specialize (Hm u Vu). pose proof (degree0_pos g u v He).
      assert (Vm : vertex g m). { unfold vertex. apply (Permutation_in _ (proj1 (C55_vertices_by_degree g))), (Permutation_in _ (swap_ends_perm _)). rewrite Es. left. reflexivity. }
      unfold wd, dg in M0. rewrite (dget_degrees g m Vm) in M0. lia. }
    intros Em. apply Z0.
    assert (A : forall v, wd dg v = 0); [|clear -A; unfold weigh; induction s as [|x s IH]; cbn [fold_right]; [reflexivity|rewrite A, IH; reflexivity]].
    intros v. unfold wd. destruct (dget dg v) as [d|] eqn:D; [|reflexivity]. apply dget_Some_In in D. unfold dg in D. apply in_map_iff in D as (x & E1 & _). injection E1 as -> <-.
    unfold degree0. destruct (dget g v) as [[|[u w] a]|] eqn:G; [reflexivity| |reflexivity]. exfalso. apply (Em v u). exists w. unfold weight. rewrite G. cbn [dget]. rewrite Z.eqb_refl. reflexivity.
Qed.
