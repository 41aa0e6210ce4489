(** * Algorithm X: the search *)
From Coq Require Import ZArith List Bool Lia Permutation ListDec.
From Verif Require Import Base Py Dict Sums AlgX_Model AlgX_Spec AlgX_Proofs.
Import ListNotations.
Open Scope Z_scope.

Lemma FOP_app {A} (R : A -> A -> Prop) l1 l2 : ForallOrdPairs R l1 -> ForallOrdPairs R l2 -> (forall a b, In a l1 -> In b l2 -> R a b) -> ForallOrdPairs R (l1 ++ l2).
Proof.
  induction 1 as [|a l H1 H2 IH]; intros F C; [exact F|]. cbn [app]. constructor.
  - apply Forall_app. split; [exact H1|]. apply Forall_forall. intros b Hb. apply C; [left; reflexivity|exact Hb].
  - apply IH; [exact F|]. intros x b Hx Hb. apply C; [right; exact Hx|exact Hb].
Qed.

Lemma FOP_map {A B} (f : A -> B) (R : A -> A -> Prop) (S : B -> B -> Prop) l : (forall a b, R a b -> S (f a) (f b)) -> ForallOrdPairs R l -> ForallOrdPairs S (map f l).
Proof.
  intros H. induction 1 as [|a l H1 H2 IH]; cbn [map]; constructor; [|exact IH]. rewrite Forall_map. eapply Forall_impl; [|exact H1]. intros b. apply H.
Qed.

Lemma min_col_In : forall X e, In (min_col e X) (dkeys (e :: X)).
Proof.
  induction X as [|e' X IH]; intros e; [left; reflexivity|]. cbn [min_col]. destruct (length (snd e') <? length (snd e))%nat.
  - right. apply IH.
  - destruct (IH e) as [H|H]; [left; exact H|right; right; exact H].
Qed.

Section Solve.
  Context (sets : list (list Z)) (ord : list Z -> list Z -> list Z).
  Hypothesis Hord : forall p s, Permutation (ord p s) s.
  Hypothesis Hsets : forall i, In i sets -> NoDup i.

  Notation n := (Z.of_nat (length sets)).
  Notation Y := (set_at sets).
  Notation cover := (cover_of sets).
  Notation Inv := (Inv sets).

  Lemma cover_ext K K' I : (forall k, In k K <-> In k K') -> cover K I -> cover K' I.
  Proof using.
    intros H (N & C1 & C2). split; [exact N|]. split; [intros i Hi; destruct (C1 i Hi) as (A & B & C); split; [exact A|]; split; [exact B|]; intros k Hk; apply H, C, Hk|]. intros j Hj. apply C2, H, Hj.
  Qed.

  Lemma cover_perm K I J : Permutation I J -> cover K I -> cover K J.
  Proof using.
    intros P (N & C1 & C2). assert (Q : forall x, In x J <-> In x I) by (intros x; split; apply Permutation_in; [symmetry|]; exact P).
    split; [exact (Permutation_NoDup P N)|]. split; [intros i Hi; apply C1, Q, Hi|]. intros j Hj. destruct (C2 j Hj) as (i & (A & B) & U). exists i. split; [split; [apply Q, A|exact B]|]. intros i' [A' B']. apply U. split; [apply Q, A'|exact B'].
  Qed.

  Lemma cover_cons K K' r c e : 0 <= r < n -> In c (Y r) -> incl (Y r) K -> (forall k, In k K' <-> In k K /\ ~ In k (Y r)) -> cover K (r :: e) <-> cover K' e.
  Proof using.
    intros R Hc Sub HK. split.
    - intros (N & C1 & C2). inversion N as [|? ? N1 N2]; subst. split; [exact N2|]. split.
      + intros i Hi. destruct (C1 i (or_intror Hi)) as (A & B & C). split; [exact A|]. split; [exact B|]. intros k Hk. apply HK. split; [apply C, Hk|]. intros Hr.
        destruct (C2 k (C k Hk)) as (x & _ & U). assert (x = r) by (apply U; split; [left; reflexivity|exact Hr]). assert (x = i) by (apply U; split; [right; exact Hi|exact Hk]). congruence.
      + intros j Hj. apply HK in Hj as [Hj Nj]. destruct (C2 j Hj) as (x & (Ix & Jx) & U). exists x. split; [split; [destruct Ix as [<-|Ix]; [contradiction|exact Ix]|exact Jx]|]. intros y [Iy Jy]. apply U. split; [right; exact Iy|exact Jy].
    - intros (N & C1 & C2). assert (Nr : forall i, In i e -> forall k, In k (Y i) -> ~ In k (Y r)). { intros i Hi k Hk. destruct (C1 i Hi) as (_ & _ & C). apply C, HK in Hk. apply Hk. }
      split; [constructor; [intros I; exact (Nr r I c Hc Hc)|exact N]|]. split.
      + intros i [<-|Hi]; [split; [exact R|]; split; [intros X; rewrite X in Hc; destruct Hc|exact Sub]|]. destruct (C1 i Hi) as (A & B & C). split; [exact A|]. split; [exact B|]. intros k Hk. apply C, HK in Hk. apply Hk.
      + intros j Hj. destruct (in_dec Z.eq_dec j (Y r)) as [Ij|Ij].
        * exists r. split; [split; [left; reflexivity|exact Ij]|]. intros x [[<-|Ix] Jx]; [reflexivity|]. exfalso. exact (Nr x Ix j Jx Ij).
        * destruct (C2 j) as (x & (Ix & Jx) & U); [apply HK; split; assumption|]. exists x. split; [split; [right; exact Ix|exact Jx]|]. intros y [[<-|Iy] Jy]; [contradiction|]. apply U. split; assumption.
  Qed.

  Lemma cover_nil I : cover [] I <-> I = [].
  Proof using.
    split.
    - intros (_ & C1 & _). destruct I as [|i I]; [reflexivity|]. exfalso. destruct (C1 i (or_introl eq_refl)) as (_ & A & B). destruct (Y i) as [|k l]; [congruence|]. exact (B k (or_introl eq_refl)).
    - intros ->. split; [constructor|]. split; [intros i []|intros j []].
  Qed.

  Lemma solve_ok : forall fuel path X, Inv X -> (length X <= fuel)%nat ->
    exists E X', solve sets ord fuel path X = Ret (map (app path) E, X') /\ Inv X' /\ (forall k, In k (dkeys X') <-> In k (dkeys X)) /\ each_once (cover (dkeys X)) E.
  Proof using Hord Hsets.
    induction fuel as [|fuel IH]; intros path X HI HL.
    - destruct X as [|e X]; [|cbn in HL; lia]. exists [[]], []. cbn [solve map]. rewrite app_nil_r. split; [reflexivity|]. split; [exact HI|]. split; [reflexivity|].
      split; [intros I [<-|[]]; apply cover_nil; reflexivity|]. split; [intros I H%cover_nil; subst; exists []; split; [left; reflexivity|constructor]|]. repeat constructor.
    - destruct X as [|e X0].
      { exists [[]], []. cbn [solve map]. rewrite app_nil_r. split; [reflexivity|]. split; [exact HI|]. split; [reflexivity|].
        split; [intros I [<-|[]]; apply cover_nil; reflexivity|]. split; [intros I H%cover_nil; subst; exists []; split; [left; reflexivity|constructor]|]. repeat constructor. }
      set (c := min_col e X0). assert (Hc : In c (dkeys (e :: X0))) by apply min_col_In. cbn [solve]. fold c. set (X := e :: X0) in *.
      destruct (proj1 (dget_key X c) Hc) as (s & Es). unfold dgetM at 1. rewrite Es. cbn [bind].
      assert (Hs : forall i, In i (ord path s) <-> 0 <= i < n /\ In c (Y i) /\ incl (Y i) (dkeys X)). { intros i. rewrite (ord_In ord Hord), <- (has_get X c s i Es), (proj2 HI). tauto. }
      assert (Ns : NoDup (ord path s)) by (apply (ord_NoDup ord Hord); exact (proj2 (proj1 HI) c s Es)).
      set (K := dkeys X) in *.
      match goal with |- exists E X', foldM ?f _ _ = _ /\ _ => set (body := f) end.
      assert (Loop : forall rs, NoDup rs -> (forall r, In r rs -> 0 <= r < n /\ In c (Y r) /\ incl (Y r) K) -> forall out X1, Inv X1 -> length X1 = length X -> (forall k, In k (dkeys X1) <-> In k K) ->
        exists E X', foldM body rs (out, X1) = Ret (out ++ map (app path) E, X') /\ Inv X' /\ (forall k, In k (dkeys X') <-> In k K) /\ each_once (fun I => cover K I /\ exists r, In r rs /\ In r I) E).
      { clear Hs Ns. induction rs as [|r rs IHr]; intros Nr Hr out X1 I1 L1 K1.
        - exists [], X1. cbn [foldM map]. rewrite app_nil_r. split; [reflexivity|]. split; [exact I1|]. split; [exact K1|]. split; [intros I []|]. split; [intros I (_ & r & [] & _)|constructor].
        - inversion Nr as [|? ? Nr1 Nr2]; subst. destruct (Hr r (or_introl eq_refl)) as (Rr & Cr & Sr). cbn [foldM]. unfold body at 1.
          rewrite (row_get sets r Rr). cbn [bind].
          destruct (cover_all sets ord Hord Hsets (path ++ [r]) (Y r) [] X1 I1 (Y_NoDup sets Hsets r)) as (cols & X2 & E2 & I2 & K2 & L2 & U2).
          { intros k Hk. apply K1, Sr, Hk. }
          rewrite E2. cbn [bind]. assert (Lr : (1 <= length (Y r))%nat) by (destruct (Y r); [destruct Cr|cbn; lia]).
          destruct (IH (path ++ [r]) X2 I2) as (E & X3 & E3 & I3 & K3 & O3). { clear - HL L1 L2 Lr. cbn [length] in *. lia. }
          rewrite E3. cbn [bind]. destruct (U2 X3 I3 K3) as (X4 & E4 & I4 & K4). rewrite E4. cbn [bind].
          destruct (IHr Nr2 (fun r' H => Hr r' (or_intror H)) (out ++ map (app (path ++ [r])) E) X4 I4) as (E' & X' & EE & I' & K' & O').
          { assert (P : Permutation (dkeys X4) (dkeys X1)) by (apply NoDup_Permutation; [apply I4|apply I1|exact K4]). apply Permutation_length in P. unfold dkeys in P. rewrite !map_length in P. congruence. }
          { intros k. rewrite K4. apply K1. }
          exists (map (cons r) E ++ E'), X'. split.
          { rewrite EE. do 2 f_equal. rewrite map_app, <- app_assoc. do 2 f_equal. rewrite map_map. apply map_ext. intros l. rewrite <- app_assoc. reflexivity. }
          split; [exact I'|]. split; [exact K'|].
          assert (CC : forall l, cover K (r :: l) <-> cover (dkeys X2) l). { intros l. apply (cover_cons K (dkeys X2) r c l Rr Cr Sr). intros k. rewrite K2, K1. reflexivity. }
          destruct O3 as (A1 & A2 & A3), O' as (B1 & B2 & B3). split; [|split].
          + intros I [H|H]%in_app_iff.
            * apply in_map_iff in H as (l & <- & H). split; [apply CC, A1, H|]. exists r. split; left; reflexivity.
            * destruct (B1 I H) as (Q & r' & Q1 & Q2). split; [exact Q|]. exists r'. split; [right; exact Q1|exact Q2].
          + intros I (C & r' & [<-|Hr'] & Hi).
            * apply in_split in Hi as (l1 & l2 & ->). assert (P : Permutation (l1 ++ r :: l2) (r :: (l1 ++ l2))) by (symmetry; apply Permutation_middle).
              destruct (A2 (l1 ++ l2)) as (J & IJ & PJ); [apply CC; exact (cover_perm K _ _ P C)|]. exists (r :: J). split; [apply in_app_iff; left; apply in_map, IJ|]. rewrite P. apply perm_skip, PJ.
            * destruct (B2 I) as (J & IJ & PJ); [split; [exact C|exists r'; split; assumption]|]. exists J. split; [apply in_app_iff; right; exact IJ|exact PJ].
          + apply FOP_app; [|exact B3|].
            * apply (FOP_map (cons r) (fun a b => ~ Permutation a b)); [|exact A3]. intros a b Q P. apply Q. exact (Permutation_cons_inv P).
            * intros a b Ha Hb P. apply in_map_iff in Ha as (l & <- & Ha). destruct (B1 b Hb) as (C & r' & Q1 & Q2). apply Nr1.
              destruct C as (_ & _ & C2). destruct (C2 c) as (x & _ & U); [exact Hc|].
              assert (x = r) by (apply U; split; [apply (Permutation_in r P); left; reflexivity|exact Cr]). assert (x = r') by (apply U; split; [exact Q2|apply (Hr r' (or_intror Q1))]). congruence. }
      destruct (Loop (ord path s) Ns (fun r H => proj1 (Hs r) H) [] X HI eq_refl (fun k => iff_refl _)) as (E & X' & EE & I' & K' & A1 & A2 & A3).
      exists E, X'. split; [exact EE|]. split; [exact I'|]. split; [exact K'|]. split; [intros I HIE; apply (A1 I HIE)|]. split; [|exact A3].
      intros I C. apply A2. split; [exact C|]. destruct C as (N & C1 & C2). destruct (C2 c Hc) as (r & (R1 & R2) & _). exists r. split; [|exact R1]. apply Hs. destruct (C1 r R1) as (Q1 & _ & Q3). split; [exact Q1|]. split; [exact R2|exact Q3].
  Qed.

  (** ** Building X *)
  Lemma init_ok : forall target X, wf X -> (forall k i, ~ has X k i) -> let X' := fold_left (fun X j => dset X j []) target X in
    wf X' /\ (forall k i, ~ has X' k i) /\ forall k, In k (dkeys X') <-> In k (dkeys X) \/ In k target.
  Proof using.
    induction target as [|j target IH]; intros X W H; cbn [fold_left]; cbv zeta; [split; [exact W|]; split; [exact H|]; intros k; cbn; tauto|].
    destruct (IH (dset X j [])) as (A & B & C); [apply dset_wf; [exact W|constructor]|intros k i; rewrite has_dset; cbn; intros [[_ []]|[_ Q]]; exact (H k i Q)|].
    split; [exact A|]. split; [exact B|]. intros k. rewrite C, dkeys_dset_In. cbn [In]. intuition.
  Qed.

  Lemma build_loop i y : forall X, wf X -> incl y (dkeys X) ->
    exists X', foldM (fun X j => do s <- dgetM X j; Ret (dset X j (sadd s i))) y X = Ret X' /\ wf X' /\ dkeys X' = dkeys X /\
      forall k i', has X' k i' <-> has X k i' \/ (i' = i /\ In k y).
  Proof using.
    induction y as [|k0 y IH]; intros X W H.
    - exists X. split; [reflexivity|]. split; [exact W|]. split; [reflexivity|]. intros k i'. cbn. tauto.
    - cbn [foldM]. destruct (proj1 (dget_key X k0) (H k0 (or_introl eq_refl))) as (t & Et). unfold dgetM at 1. rewrite Et. cbn [bind].
      pose proof (dset_keys X k0 (sadd t i) t Et) as Ek.
      destruct (IH (dset X k0 (sadd t i))) as (X' & E & W' & K' & H').
      { apply dset_wf; [exact W|]. apply sadd_NoDup. apply (proj2 W k0 t Et). }
      { intros k Hk. rewrite Ek. apply H. right. exact Hk. }
      exists X'. split; [exact E|]. split; [exact W'|]. split; [rewrite K'; exact Ek|].
      intros k i'. rewrite H', has_dset, sadd_In. cbn [In]. destruct (Z.eq_dec k k0) as [->|Nk].
      + rewrite (has_get X k0 t i' Et). intuition congruence.
      + intuition congruence.
  Qed.

  Lemma build_ok target : (forall s, In s sets -> incl s target) ->
    exists X, build sets target = Ret X /\ Inv X /\ forall k, In k (dkeys X) <-> In k target.
  Proof using.
    intros Sub. unfold build. destruct (init_ok target []) as (W0 & H0 & K0); [split; [constructor|intros k t; discriminate]|intros k i (t & E & _); discriminate|].
    cbv zeta in *. set (X0 := fold_left _ target []) in *. assert (K : forall k, In k (dkeys X0) <-> In k target) by (intros k; rewrite K0; cbn; tauto). clear K0.
    assert (SubY : forall i, incl (Y i) (dkeys X0)). { intros i k Hk. apply K. unfold set_at in Hk. destruct (Nat.lt_ge_cases (Z.to_nat i) (length sets)) as [L|L]; [exact (Sub _ (nth_In _ _ L) k Hk)|rewrite nth_overflow in Hk by exact L; destruct Hk]. }
    destruct (foldM_range (fun X i => do y <- pyget sets i; foldM (fun X j => do s <- dgetM X j; Ret (dset X j (sadd s i))) y X)
      (fun i X => wf X /\ dkeys X = dkeys X0 /\ forall k i', has X k i' <-> 0 <= i' < i /\ In k (Y i')) 0 n X0) as (X & E & W & EK & H).
    - lia.
    - split; [exact W0|]. split; [reflexivity|]. intros k i'. split; [intros Q; destruct (H0 k i' Q)|lia].
    - intros i X Hi (W & EK & H). rewrite (row_get sets i Hi). cbn [bind]. destruct (build_loop i (Y i) X W) as (X' & E' & W' & K' & H'); [rewrite EK; apply SubY|].
      exists X'. split; [exact E'|]. split; [exact W'|]. split; [congruence|]. intros k i'. rewrite H', H. split; [intros [[A B]|[-> B]]; split; (lia || exact B)|].
      intros [A B]. destruct (Z.eq_dec i' i) as [->|]; [right; split; [reflexivity|exact B]|left; split; [lia|exact B]].
    - exists X. split; [exact E|]. split; [|intros k; rewrite EK; apply K]. split; [exact W|]. intros k i. rewrite H, EK. split; [|tauto]. intros [A B]. split; [apply (SubY i), B|]. split; [exact A|]. split; [exact B|apply SubY].
  Qed.

  Lemma algorithmx_ok target : (forall s, In s sets -> incl s target) ->
    exists L X X', algorithmx_full sets ord target = Ret (map (map Y) L, (X, X')) /\ each_once (cover target) L /\
      Permutation (dkeys X) (dkeys X') /\ (forall k s, dget X k = Some s -> exists s', dget X' k = Some s' /\ Permutation s s').
  Proof using Hord Hsets.
    intros Sub. destruct (build_ok target Sub) as (X & E & HI & K). unfold algorithmx_full. rewrite E. cbn [bind].
    destruct (solve_ok (length X) [] X HI (le_n _)) as (L & X' & E' & I' & K' & A1 & A2 & A3). rewrite E'. cbn [bind]. rewrite (map_ext (app []) (fun l => l)) by reflexivity. rewrite map_id.
    assert (EO : each_once (cover target) L). { split; [intros I H; apply (cover_ext (dkeys X) target I K), A1, H|]. split; [|exact A3]. intros I H. apply A2. apply (cover_ext target (dkeys X) I); [|exact H]. intros k. symmetry. apply K. }
    rewrite (mapM_ret (mapM (pyget sets)) (map Y)).
    - cbn [bind]. exists L, X, X'. split; [reflexivity|]. split; [exact EO|]. split; [apply NoDup_Permutation; [apply HI|apply I'|intros k; symmetry; apply K']|].
      intros k s Es. assert (Hk : In k (dkeys X')) by (apply K', dget_key; eauto). apply dget_key in Hk as (s' & Es'). exists s'. split; [exact Es'|].
      apply NoDup_Permutation; [exact (proj2 (proj1 HI) k s Es)|exact (proj2 (proj1 I') k s' Es')|]. intros i. rewrite <- (has_get X k s i Es), <- (has_get X' k s' i Es'), (proj2 HI), (proj2 I'), K'.
      assert (Q : incl (Y i) (dkeys X) <-> incl (Y i) (dkeys X')) by (unfold incl; split; intros A a Ha; apply K', A, Ha). rewrite Q. reflexivity.
    - intros I HI'. apply mapM_ret. intros i Hi. apply row_get. destruct (A1 I HI') as (_ & C1 & _). apply (C1 i Hi).
  Qed.

  (** An element outside the target. *)
  Lemma loop_raise i y : forall X, ~ incl y (dkeys X) -> foldM (fun X j => do s <- dgetM X j; Ret (dset X j (sadd s i))) y X = Raise KeyError.
  Proof using.
    induction y as [|k y IH]; intros X H; [exfalso; apply H; intros a []|]. cbn [foldM]. unfold dgetM at 1. destruct (dget X k) as [t|] eqn:Et; [|reflexivity]. cbn [bind]. apply IH. rewrite (dset_keys X k (sadd t i) t Et).
    intros A. apply H. intros a [<-|Ha]; [apply dget_key; eauto|apply A, Ha].
  Qed.

  Lemma build_raise target s : In s sets -> ~ incl s target -> build sets target = Raise KeyError.
  Proof using.
    intros Is Ns. unfold build. destruct (init_ok target []) as (W0 & H0 & K0); [split; [constructor|intros k t; discriminate]|intros k i (t & E & _); discriminate|].
    cbv zeta in *. set (X0 := fold_left _ target []) in *. clearbody X0. assert (K : forall k, In k (dkeys X0) <-> In k target) by (intros k; rewrite K0; cbn; tauto). clear K0 H0.
    apply (In_nth _ _ []) in Is as (m & Lm & Em).
    assert (P : forall l X, wf X -> (forall k, In k (dkeys X) <-> In k target) -> (forall i, In i l -> 0 <= i < n) -> (exists i, In i l /\ ~ incl (Y i) target) ->
      foldM (fun X i => do y <- pyget sets i; foldM (fun X j => do s <- dgetM X j; Ret (dset X j (sadd s i))) y X) l X = Raise KeyError).
    { induction l as [|i l IH]; intros X W HK R (i0 & Ii & Hi); [destruct Ii|]. cbn [foldM]. rewrite (row_get sets i) by (apply R; left; reflexivity). cbn [bind].
      destruct (ListDec.incl_dec Z.eq_dec (Y i) (dkeys X)) as [D|D]; [|rewrite loop_raise by exact D; reflexivity].
      destruct (build_loop i (Y i) X W D) as (X' & E' & W' & K' & _). rewrite E'. cbn [bind]. apply IH; [exact W'|rewrite K'; exact HK|intros j Hj; apply R; right; exact Hj|].
      destruct Ii as [<-|Ii]; [exfalso; apply Hi; intros k Hk; apply HK, D, Hk|]. exists i0. split; assumption. }
    apply P; [exact W0|exact K|intros i Hi%zrange_In; exact Hi|]. exists (Z.of_nat m). split; [apply zrange_In; lia|]. unfold set_at. rewrite Nat2Z.id, Em. exact Ns.
  Qed.
End Solve.
