(** * Hamiltonian paths *)
From Coq Require Import ZArith List Lia Bool Permutation.
From Verif Require Import Base Py Dict Lists Lists2 Count Graph_Model Graph_Spec Graph_Proofs Graph_Proofs2 Trav_Model Trav_Proofs Cliq_Model Cliq_Spec Cliq_Proofs Mask_Proofs Color_Proofs Ham_Model Ham_Spec.
Import ListNotations.
Open Scope Z_scope.

Lemma successive_nil g : successive g []. Proof. intros [|x [|y a]] u v b E; discriminate. Qed.
Lemma successive_one g u : successive g [u]. Proof. intros [|x [|y a]] w v b E; discriminate. Qed.
Lemma successive_cons g u v p : successive g (u :: v :: p) <-> edge g u v /\ successive g (v :: p).
Proof.
  split.
  - intros H. split; [apply (H [] u v p); reflexivity|]. intros a x y b E. apply (H (u :: a) x y b). rewrite E. reflexivity.
  - intros (H1 & H2) [|z a] x y b E; cbn in E; injection E.
    + intros _ <- <-. exact H1.
    + intros E' _. apply (H2 a x y b E').
Qed.

(** The ways to go on from [last] through all of [left]. *)
Definition ext g (last : Z) (left p : list Z) : Prop := Permutation p left /\ successive g (last :: p).

Lemma ext_perm g last l l' p : Permutation l l' -> (ext g last l p <-> ext g last l' p).
Proof. intros P. unfold ext. split; intros (A & B); (split; [|exact B]); [rewrite A; exact P|rewrite A; symmetry; exact P]. Qed.

Lemma discard_perm l u : NoDup l -> In u l -> Permutation l (u :: discard l u).
Proof.
  intros N Hu. apply NoDup_same_perm; [exact N|constructor; [rewrite discard_In; tauto|apply discard_nodup, N]|].
  intros x. cbn [In]. rewrite discard_In. destruct (Z.eq_dec x u) as [->|D]; [tauto|]. split; [tauto|]. intros [<-|H]; [exact Hu|tauto].
Qed.

Lemma ext_cons g last left u q : NoDup left -> (ext g last left (u :: q) <-> In u left /\ edge g last u /\ ext g u (discard left u) q).
Proof.
  intros N. unfold ext. rewrite successive_cons. split.
  - intros (P & E & H). assert (Hu : In u left) by (apply (Permutation_in _ P); left; reflexivity). split; [exact Hu|]. split; [exact E|]. split; [|exact H].
    apply (Permutation_cons_inv (a := u)). rewrite P. apply discard_perm; assumption.
  - intros (Hu & E & P & H). split; [|split; assumption]. rewrite P. symmetry. apply discard_perm; assumption.
Qed.

Lemma ext_nil_of g last left : left <> [] -> ~ ext g last left [].
Proof. intros Ne (P & _). apply Permutation_nil in P. contradiction. Qed.

Lemma ext_sum g last left C f : NoDup left -> left <> [] -> NoDup C -> (forall u, In u C <-> edge g last u /\ In u left) ->
  (forall u, In u C -> number_of (ext g u (discard left u)) (f u)) -> number_of (ext g last left) (zsum (map f C)).
Proof.
  intros N Ne NC HC Hf.
  apply number_of_ext with (P := fun p => exists u, In u C /\ exists q, p = u :: q /\ ext g u (discard left u) q).
  - intros p. split.
    + intros (u & Hu & q & -> & H). apply ext_cons; [exact N|]. apply HC in Hu. tauto.
    + intros H. destruct p as [|u q]; [destruct (ext_nil_of g last left Ne H)|]. apply ext_cons in H; [|exact N]. exists u. split; [apply HC; tauto|]. exists q. split; [reflexivity|tauto].
  - apply number_of_sum; [exact NC| |].
    + intros u Hu. apply (number_of_bij (ext g u (discard left u)) _ (cons u) (@tl Z)); [| |apply Hf, Hu].
      * intros q Hq. split; [exists q; split; [reflexivity|exact Hq]|reflexivity].
      * intros p (q & -> & Hq). split; [exact Hq|reflexivity].
    + intros u v p _ _ (q & -> & _) (q' & E & _). congruence.
Qed.

(** The same for all the vertices. *)
Lemma ham_sum g f C : NoDup (map fst g) -> g <> [] -> Permutation C (map fst g) ->
  (forall u, In u C -> number_of (ext g u (discard (map fst g) u)) (f u)) -> number_of (hamiltonian_path g) (zsum (map f C)).
Proof.
  intros N Ne PC Hf.
  apply number_of_ext with (P := fun p => exists u, In u C /\ exists q, p = u :: q /\ ext g u (discard (map fst g) u) q).
  - intros p. split.
    + intros (u & Hu & q & -> & P & H). split; [|exact H]. rewrite P. symmetry. apply discard_perm; [exact N|]. apply (Permutation_in _ PC), Hu.
    + intros (P & H). destruct p as [|u q].
      * exfalso. apply Permutation_nil in P. destruct g; [congruence|discriminate].
      * assert (Hu : In u (map fst g)) by (apply (Permutation_in _ P); left; reflexivity). exists u. split; [apply (Permutation_in _ (Permutation_sym PC)), Hu|]. exists q. split; [reflexivity|]. split; [|exact H].
        apply (Permutation_cons_inv (a := u)). rewrite P. apply discard_perm; assumption.
  - apply number_of_sum; [eapply Permutation_NoDup; [symmetry; exact PC|exact N]| |].
    + intros u Hu. apply (number_of_bij (ext g u (discard (map fst g) u)) _ (cons u) (@tl Z)); [| |apply Hf, Hu].
      * intros q Hq. split; [exists q; split; [reflexivity|exact Hq]|reflexivity].
      * intros p (q & -> & Hq). split; [exact Hq|reflexivity].
    + intros u v p _ _ (q & -> & _) (q' & E & _). congruence.
Qed.

Lemma foldM_app_lists {A} (F : A -> outcome (list (list Z))) C : forall acc G, (forall v, In v C -> F v = Ret (G v)) ->
  foldM (fun l v => do m <- F v; Ret (l ++ m)) C acc = Ret (acc ++ flat_map G C).
Proof.
  induction C as [|v C IH]; intros acc G H; cbn [foldM flat_map]; [rewrite app_nil_r; reflexivity|].
  rewrite (H v (or_introl eq_refl)). cbn [bind]. rewrite (IH _ G) by (intros w Hw; apply H; right; exact Hw). rewrite <- app_assoc. reflexivity.
Qed.

Lemma foldM_sum {A} (F : A -> outcome Z) C : forall acc G, (forall v, In v C -> F v = Ret (G v)) ->
  foldM (fun l v => do m <- F v; Ret (l + m)) C acc = Ret (acc + zsum (map G C)).
Proof.
  induction C as [|v C IH]; intros acc G H; cbn [foldM map zsum fold_right]; [rewrite Z.add_0_r; reflexivity|].
  rewrite (H v (or_introl eq_refl)). cbn [bind]. rewrite (IH _ G) by (intros w Hw; apply H; right; exact Hw). unfold zsum. rewrite Z.add_assoc. reflexivity.
Qed.

(** ** is_connected2 *)
Section Connected.
  Context (g : graph).
  Hypothesis Hg : undirected g.

  Section Loop.
    Context (ord : list Z -> list Z) (allowed : list Z) (s : Z).
    Hypothesis Ho : forall l, Permutation (ord l) l.
    Hypothesis Na : NoDup allowed.

    Definition cinv (stack visited : list Z) : Prop :=
      NoDup visited /\ (forall x, In x stack \/ In x visited -> reach_in g allowed s x) /\
      (forall u v, In u visited -> edge g u v -> In v allowed -> In v visited \/ In v stack) /\ (In s stack \/ In s visited).

    Lemma reach_in_In x : reach_in g allowed s x -> In x allowed.
    Proof. destruct 1; assumption. Qed.

    Lemma con_loop_ok : forall fuel stack visited, cinv stack visited -> (length stack + length allowed * (length allowed - length visited) < fuel)%nat ->
      exists vis, con_loop g ord allowed fuel stack visited = Ret vis /\ NoDup vis /\ forall x, In x vis <-> reach_in g allowed s x.
    Proof.
      induction fuel as [|fuel IH]; intros stack visited (Nv & R & C & S0) L; [lia|]. cbn [con_loop]. destruct stack as [|u stack].
      - exists visited. split; [reflexivity|]. split; [exact Nv|]. intros x. split; [intros H; apply R; right; exact H|].
        induction 1 as [H|v w H IHr E Hw]; [destruct S0 as [[]|S0]; exact S0|]. destruct (C v w IHr E Hw) as [H'|[]]. exact H'.
      - destruct (mem u visited) eqn:M.
        + apply mem_In in M. apply IH; [|cbn [length] in L; lia]. split; [exact Nv|]. split; [|split].
          * intros x [H|H]; apply R; [left; right; exact H|right; exact H].
          * intros x y Hx E Hy. destruct (C x y Hx E Hy) as [H|[<-|H]]; [left; exact H|left; exact M|right; exact H].
          * destruct S0 as [[<-|H]|H]; [right; exact M|left; exact H|right; exact H].
        + apply mem_false in M. assert (Ru : reach_in g allowed s u) by (apply R; left; left; reflexivity).
          set (new := filter (fun v => negb (mem v visited)) (ord (inter (nbr g u) allowed))).
          assert (Hn : forall v, In v new <-> edge g u v /\ In v allowed /\ ~ In v visited).
          { intros v. unfold new. rewrite filter_In. split.
            - intros (H & N'). apply (Permutation_in _ (Ho _)), inter_In in H as [H1 H2]. apply (nbr_In g) in H1. apply negb_true_iff, mem_false in N'. tauto.
            - intros (H1 & H2 & H3). split; [apply (Permutation_in _ (Permutation_sym (Ho _))), inter_In; split; [apply (nbr_In g), H1|exact H2]|]. apply negb_true_iff. destruct (mem v visited) eqn:M'; [apply mem_In in M'; contradiction|reflexivity]. }
          assert (Ln : (length new <= length allowed)%nat).
          { apply NoDup_incl_length; [|intros v Hv; apply Hn in Hv; tauto]. apply NoDup_filter. apply (Permutation_NoDup (Permutation_sym (Ho _))). apply inter_nodup. unfold nbr. destruct (dget g u) as [a|] eqn:E; [|constructor].
            apply dget_Some_In in E. destruct Hg as (_ & H & _). apply (H u a E). }
          apply IH.
          * split; [constructor; assumption|]. split; [|split].
            -- intros x [H|[<-|H]]; [|exact Ru|apply R; right; exact H]. apply in_app_iff in H as [H|H]; [|apply R; left; right; exact H].
               apply in_rev, Hn in H. apply (reach_step g allowed s u x Ru); tauto.
            -- intros x y Hx E Hy. destruct (in_dec Z.eq_dec y (u :: visited)) as [Iy|Iy]; [left; exact Iy|right]. apply in_or_app. destruct Hx as [<-|Hx].
               ++ left. apply -> in_rev. apply Hn. split; [exact E|]. split; [exact Hy|]. intros H. apply Iy. right. exact H.
               ++ destruct (C x y Hx E Hy) as [H|[<-|H]]; [destruct Iy; right; exact H|destruct Iy; left; reflexivity|right; exact H].
            -- destruct S0 as [[<-|H]|H]; [right; left; reflexivity|left; apply in_or_app; right; exact H|right; right; exact H].
          * assert (Lv : (length (u :: visited) <= length allowed)%nat).
            { apply NoDup_incl_length; [constructor; assumption|]. intros x [<-|Hx]; apply reach_in_In; [exact Ru|apply R; right; exact Hx]. }
            rewrite app_length, rev_length. cbn [length] in L, Lv |- *.
            replace (length allowed - length visited)%nat with (S (length allowed - S (length visited)))%nat in L by lia. rewrite Nat.mul_succ_r in L. lia.
    Qed.
  End Loop.

  Lemma reach_sym' S u v : reach_in g S u v -> In u S -> reach_in g S v u.
  Proof.
    assert (T : forall a b, reach_in g S a b -> forall c, reach_in g S b c -> reach_in g S a c).
    { intros a b H c H'. induction H' as [H'|v' w H' IH E Hw]; [exact H|]. apply (reach_step g S a v' w); assumption. }
    induction 1 as [H|v w H IH E Hw]; intros Hu; [apply reach_here, Hu|]. apply (T w v); [|apply IH, Hu].
    apply (reach_step g S w w v); [apply reach_here, Hw|apply (esym g Hg), E|]. destruct H; assumption.
  Qed.
  Lemma reach_trans' S a b c : reach_in g S a b -> reach_in g S b c -> reach_in g S a c.
  Proof. intros H H'. induction H' as [H'|v' w H' IH E Hw]; [exact H|]. apply (reach_step g S a v' w); assumption. Qed.

  Lemma is_connected2_ok ord allowed : (forall l, Permutation (ord l) l) -> NoDup allowed ->
    exists b, is_connected2 g ord allowed = Ret b /\ (b = true <-> connected_in g allowed).
  Proof.
    intros Ho Na. unfold is_connected2. destruct (ord allowed) as [|s r] eqn:E.
    - exists true. split; [reflexivity|]. pose proof (Ho allowed) as P. rewrite E in P. apply Permutation_nil in P. subst allowed. split; [intros _ u v []|reflexivity].
    - assert (Hs : In s allowed) by (apply (Permutation_in _ (Ho allowed)); rewrite E; left; reflexivity).
      destruct (con_loop_ok ord allowed s Ho (2 + length allowed * length allowed) [s] []) as (vis & Ev & Nv & Hv).
      + split; [constructor|]. split; [|split]; [|intros u v []|left; left; reflexivity]. intros x [[<-|[]]|[]]. apply reach_here, Hs.
      + cbn [length]. rewrite Nat.sub_0_r. lia.
      + rewrite Ev. cbn [bind]. eexists. split; [reflexivity|]. rewrite andb_true_iff, !forallb_forall. split.
        * intros (_ & H) u v Hu Hv'. assert (A : forall x, In x allowed -> reach_in g allowed s x) by (intros x Hx; apply Hv, mem_In, H, Hx).
          apply (reach_trans' allowed u s v); [apply reach_sym'; [apply A, Hu|exact Hs]|apply A, Hv'].
        * intros H. split; intros x Hx; apply mem_In.
          -- apply Hv in Hx. destruct Hx; assumption.
          -- apply Hv, H; assumption.
  Qed.

  (** A sequence through all the vertices of S connects them. *)
  Lemma path_connected S p : Permutation p S -> successive g p -> connected_in g S.
  Proof.
    intros P H. assert (K : forall q u, successive g (u :: q) -> (forall x, In x (u :: q) -> In x S) -> forall x, In x (u :: q) -> reach_in g S u x).
    { clear p P H. induction q as [|v q IH]; intros u H Hin x Hx.
      - destruct Hx as [<-|[]]. apply reach_here, Hin. left. reflexivity.
      - apply successive_cons in H as (E & H). destruct Hx as [<-|Hx]; [apply reach_here, Hin; left; reflexivity|].
        apply (reach_trans' S u v x); [|apply IH; [exact H|intros y Hy; apply Hin; right; exact Hy|exact Hx]].
        apply (reach_step g S u u v); [apply reach_here, Hin; left; reflexivity|exact E|apply Hin; right; left; reflexivity]. }
    intros u v Hu Hv. apply (Permutation_in _ (Permutation_sym P)) in Hu, Hv. destruct p as [|s p]; [destruct Hu|].
    assert (Hin : forall x, In x (s :: p) -> In x S) by (intros x Hx; apply (Permutation_in _ P), Hx).
    apply (reach_trans' S u s v); [apply reach_sym'; [apply (K p s H Hin), Hu|apply Hin; left; reflexivity]|apply (K p s H Hin), Hv].
  Qed.

  Lemma ext_connected last left p : ext g last left p -> connected_in g left.
  Proof.
    intros (P & H). apply (path_connected left p P). destruct p as [|u p]; [apply successive_nil|]. apply successive_cons in H. apply H.
  Qed.

  (** ** The generators *)
  Lemma nbr_NoDup u : NoDup (nbr g u).
  Proof.
    unfold nbr. destruct (dget g u) as [a|] eqn:E; [|constructor]. apply dget_Some_In in E. destruct Hg as (_ & H & _). apply (H u a E).
  Qed.

  Section Gen.
    Context (ord : list Z -> list Z -> list Z) (con : bool).
    Hypothesis Ho : forall u l, Permutation (ord u l) l.

    Lemma discard_length l u : NoDup l -> In u l -> (length (discard l u) < length l)%nat.
    Proof. intros N Hu. rewrite (Permutation_length (discard_perm l u N Hu)) at 1. cbn [length]. lia. Qed.

    Lemma hextend_ok : forall fuel used last unused, NoDup unused -> (length unused < fuel)%nat ->
      exists L, hextend g ord con fuel used last unused = Ret L /\ NoDup L /\ forall p, In p L <-> exists q, p = used ++ q /\ ext g last unused q.
    Proof using Hg Ho.
      induction fuel as [|fuel IH]; intros used last unused N L; [lia|]. cbn [hextend]. destruct unused as [|x0 r0] eqn:Eu.
      { exists [used]. split; [reflexivity|]. split; [repeat constructor; intros []|]. intros p. split.
        - intros [<-|[]]. exists []. rewrite app_nil_r. split; [reflexivity|]. split; [constructor|apply successive_one].
        - intros (q & -> & P & _). apply Permutation_sym, Permutation_nil in P. subst q. rewrite app_nil_r. left. reflexivity. }
      rewrite <- Eu in *. assert (Ne : unused <> []) by (rewrite Eu; discriminate). clear Eu x0 r0.
      assert (Conn : exists b, (if con then is_connected2 g (ord used) unused else Ret true) = Ret b /\ (b = false -> ~ connected_in g unused)).
      { destruct con; [|exists true; split; [reflexivity|discriminate]]. destruct (is_connected2_ok (ord used) unused (Ho used) N) as (b & E & H). exists b. split; [exact E|]. intros -> H'. apply H in H'. discriminate. }
      destruct Conn as (b & -> & Hb). cbn [bind]. destruct b.
      2:{ exists []. split; [reflexivity|]. split; [constructor|]. intros p. split; [intros []|]. intros (q & _ & H). apply (Hb eq_refl), (ext_connected last unused q H). }
      set (C := ord used (inter (nbr g last) unused)).
      assert (HC : forall u, In u C <-> edge g last u /\ In u unused).
      { intros u. unfold C. rewrite <- (nbr_In g last u), <- inter_In. split; apply Permutation_in; [|symmetry]; apply Ho. }
      assert (NC : NoDup C) by (apply (Permutation_NoDup (Permutation_sym (Ho used _))), inter_nodup, nbr_NoDup).
      set (F := fun v => hextend g ord con fuel (used ++ [v]) v (discard unused v)).
      assert (HF : forall v, In v C -> exists L, F v = Ret L /\ NoDup L /\ forall p, In p L <-> exists q, p = (used ++ [v]) ++ q /\ ext g v (discard unused v) q).
      { intros v Hv. apply IH; [apply discard_nodup, N|]. apply HC in Hv. pose proof (discard_length unused v N (proj2 Hv)). lia. }
      set (G := fun v => match F v with Ret m => m | _ => [] end).
      assert (HG : forall v, In v C -> F v = Ret (G v) /\ NoDup (G v) /\ forall p, In p (G v) <-> exists q, p = (used ++ [v]) ++ q /\ ext g v (discard unused v) q).
      { intros v Hv. destruct (HF v Hv) as (Lv & E & H). unfold G. rewrite E. split; [reflexivity|exact H]. }
      exists (flat_map G C). split; [apply (foldM_app_lists F C [] G); intros v Hv; apply HG, Hv|]. split.
      - apply NoDup_flat_map; [exact NC|intros v Hv; apply HG, Hv|]. intros x y p Hx Hy Hp1 Hp2.
        apply (HG x Hx) in Hp1 as (q1 & E1 & _). apply (HG y Hy) in Hp2 as (q2 & E2 & _). rewrite E1, <- !app_assoc in E2. apply app_inv_head in E2. cbn [app] in E2. congruence.
      - intros p. rewrite in_flat_map. split.
        + intros (v & Hv & Hp). apply (HG v Hv) in Hp as (q & -> & Hq). exists (v :: q). rewrite <- app_assoc. split; [reflexivity|]. apply ext_cons; [exact N|]. apply HC in Hv. tauto.
        + intros (q & -> & Hq). destruct q as [|v q]; [destruct (ext_nil_of g last unused Ne Hq)|]. apply ext_cons in Hq; [|exact N]. destruct Hq as (Hv & E & Hq).
          assert (Hv' : In v C) by (apply HC; tauto). exists v. split; [exact Hv'|]. apply (HG v Hv'). exists q. rewrite <- app_assoc. split; [reflexivity|exact Hq].
    Qed.

    Lemma ham_paths_ok : g <> [] -> exists L, ham_paths g ord con = Ret L /\ NoDup L /\ forall p, In p L <-> hamiltonian_path g p.
    Proof using Hg Ho.
      intros Ne. unfold ham_paths. set (C := ord [] (dkeys g)). assert (PC : Permutation C (map fst g)) by apply Ho.
      assert (N : NoDup (dkeys g)) by apply Hg.
      set (F := fun v => hextend g ord con (length g) [v] v (discard (dkeys g) v)). set (G := fun v => match F v with Ret m => m | _ => [] end).
      assert (HG : forall v, In v C -> F v = Ret (G v) /\ NoDup (G v) /\ forall p, In p (G v) <-> exists q, p = [v] ++ q /\ ext g v (discard (dkeys g) v) q).
      { intros v Hv. apply (Permutation_in _ PC) in Hv. destruct (hextend_ok (length g) [v] v (discard (dkeys g) v)) as (L & E & H); [apply discard_nodup, N| |].
        - pose proof (discard_length (dkeys g) v N Hv) as LL. unfold dkeys in LL at 2. rewrite map_length in LL. exact LL.
        - unfold G, F. rewrite E. split; [reflexivity|exact H]. }
      exists (flat_map G C). split; [apply (foldM_app_lists F C [] G); intros v Hv; apply HG, Hv|]. split.
      - apply NoDup_flat_map; [apply (Permutation_NoDup (Permutation_sym PC)), N|intros v Hv; apply HG, Hv|]. intros x y p Hx Hy Hp1 Hp2.
        apply (HG x Hx) in Hp1 as (q1 & E1 & _). apply (HG y Hy) in Hp2 as (q2 & E2 & _). cbn in E1, E2. congruence.
      - intros p. rewrite in_flat_map. split.
        + intros (v & Hv & Hp). apply (HG v Hv) in Hp as (q & -> & P & H). split; [|exact H]. cbn [app]. rewrite P. symmetry. apply discard_perm; [exact N|]. apply (Permutation_in _ PC), Hv.
        + intros (P & H). destruct p as [|v q]; [exfalso; apply Permutation_nil in P; destruct g; [congruence|discriminate]|].
          assert (Hv : In v (map fst g)) by (apply (Permutation_in _ P); left; reflexivity). assert (Hv' : In v C) by (apply (Permutation_in _ (Permutation_sym PC)), Hv).
          exists v. split; [exact Hv'|]. apply (HG v Hv'). exists q. split; [reflexivity|]. split; [|exact H].
          apply (Permutation_cons_inv (a := v)). rewrite P. apply discard_perm; assumption.
    Qed.
  End Gen.

  Section Num.
    Context (ord : list Z -> list Z).
    Hypothesis Ho : forall l, Permutation (ord l) l.

    Lemma nextend_ok : forall fuel last left, NoDup left -> (length left < fuel)%nat ->
      exists v, nextend g ord fuel last left = Ret v /\ number_of (ext g last left) v.
    Proof using Hg Ho.
      induction fuel as [|fuel IH]; intros last left N L; [lia|]. cbn [nextend]. destruct left as [|x0 r0] eqn:Eu.
      { exists 1. split; [reflexivity|]. apply (number_of_one _ []). intros p. split; [intros (P & _); apply Permutation_sym, Permutation_nil in P; exact P|intros ->; split; [constructor|apply successive_one]]. }
      rewrite <- Eu in *. assert (Ne : left <> []) by (rewrite Eu; discriminate). clear Eu x0 r0.
      set (C := ord (inter (nbr g last) left)).
      assert (HC : forall u, In u C <-> edge g last u /\ In u left).
      { intros u. unfold C. rewrite <- (nbr_In g last u), <- inter_In. split; apply Permutation_in; [|symmetry]; apply Ho. }
      assert (NC : NoDup C) by (apply (Permutation_NoDup (Permutation_sym (Ho _))), inter_nodup, nbr_NoDup).
      set (F := fun v => nextend g ord fuel v (discard left v)). set (G := fun v => match F v with Ret m => m | _ => 0 end).
      assert (HG : forall v, In v C -> F v = Ret (G v) /\ number_of (ext g v (discard left v)) (G v)).
      { intros v Hv. destruct (IH v (discard left v)) as (x & E & H); [apply discard_nodup, N| |unfold G, F; rewrite E; split; [reflexivity|exact H]].
        apply HC in Hv. pose proof (discard_length left v N (proj2 Hv)). lia. }
      exists (zsum (map G C)). split; [apply (foldM_sum F C 0 G); intros v Hv; apply HG, Hv|]. apply ext_sum; [exact N|exact Ne|exact NC|exact HC|]. intros u Hu. apply HG, Hu.
    Qed.

    Lemma number_ok : g <> [] -> exists v, number_of_hamiltonian_paths g ord = Ret v /\ number_of (hamiltonian_path g) v.
    Proof using Hg Ho.
      intros Ne. unfold number_of_hamiltonian_paths. set (C := ord (dkeys g)). assert (PC : Permutation C (map fst g)) by apply Ho.
      assert (N : NoDup (dkeys g)) by apply Hg.
      set (F := fun v => nextend g ord (length g) v (discard (dkeys g) v)). set (G := fun v => match F v with Ret m => m | _ => 0 end).
      assert (HG : forall v, In v C -> F v = Ret (G v) /\ number_of (ext g v (discard (dkeys g) v)) (G v)).
      { intros v Hv. apply (Permutation_in _ PC) in Hv. destruct (nextend_ok (length g) v (discard (dkeys g) v)) as (x & E & H); [apply discard_nodup, N| |unfold G, F; rewrite E; split; [reflexivity|exact H]].
        pose proof (discard_length (dkeys g) v N Hv) as LL. unfold dkeys in LL at 2. rewrite map_length in LL. exact LL. }
      exists (zsum (map G C)). split; [apply (foldM_sum F C 0 G); intros v Hv; apply HG, Hv|]. apply ham_sum; [exact N|exact Ne|exact PC|]. intros u Hu. apply HG, Hu.
    Qed.
  End Num.
End Connected.
