(** * alphametics.solve: the search *)
From Coq Require Import ZArith List Bool Lia Permutation Sorting.Sorted.
From Verif Require Import Base Py Dict Lists2 Trav_Model Trav_Proofs Kor_Model Kor_Proofs Graph_Model Graph_Proofs2 Alpha_Spec Alpha_Model Alpha_Proofs.
Import ListNotations.
Open Scope Z_scope.

Lemma val_loop sig : exists k, 0 <= k /\ run val_step (bits (Z.abs sig)) (1, sig) = Ret (10 ^ k) /\ (10 ^ k | sig).
Proof.
  assert (G : exists v, run val_step (bits (Z.abs sig)) (1, sig) = Ret v /\ exists k, 0 <= k /\ v = 10 ^ k /\ (v | sig)).
  2:{ destruct G as (v & E & k & K & -> & D). exists k. auto. }
  apply (run_rule val_step (fun s => exists k, 0 <= k /\ fst s = 10 ^ k /\ sig = fst s * snd s) (fun s => Z.abs (snd s))
    (fun r => exists v, r = Ret v /\ exists k, 0 <= k /\ v = 10 ^ k /\ (v | sig))).
  - intros (v, t) (k & K & E & F). cbn [fst snd] in *. unfold val_step. destruct (Z.eqb_spec t 0) as [->|Nt]; cbn [negb andb].
    + exists v. split; [reflexivity|]. exists k. split; [exact K|]. split; [exact E|]. exists 0. lia.
    + destruct (Z.eqb_spec (t mod 10) 0) as [M|M].
      * cbn [fst snd]. pose proof (Z.div_mod t 10 ltac:(lia)) as D. rewrite M in D. split; [|clear - D Nt; remember (t / 10) as q; lia].
        exists (k + 1). split; [lia|]. rewrite Z.pow_add_r by lia. split; [rewrite E; reflexivity|]. rewrite F. rewrite D at 1. ring.
      * exists v. split; [reflexivity|]. exists k. split; [exact K|]. split; [exact E|]. exists t. lia.
  - cbn. exists 0. split; [lia|]. split; [reflexivity|]. destruct sig; reflexivity.
  - cbn [snd]. apply bits_spec.
Qed.

Lemma valuations_ok sg : NoDup (dkeys sg) -> exists vl, valuations sg = Ret vl /\
  forall c s, In (c, s) sg -> exists k, 0 <= k /\ dget vl c = Some (10 ^ k) /\ (10 ^ k | s).
Proof.
  intros N. unfold valuations.
  match goal with |- context [foldM ?f sg ?s0] => destruct (foldM_inv f
    (fun pre vl => forall c s, In (c, s) pre -> exists k, 0 <= k /\ dget vl c = Some (10 ^ k) /\ (10 ^ k | s)) sg s0) as (vl & E & A) end.
  - intros c s [].
  - intros pre (c, s) post vl E A. destruct (val_loop s) as (k & K & R & D). rewrite R. cbn [bind]. eexists. split; [reflexivity|].
    intros c' s' I. apply in_app_iff in I. destruct I as [I|[I|[]]].
    + rewrite dget_dset_other; [exact (A c' s' I)|]. intros ->. rewrite E in N. unfold dkeys in N. rewrite map_app in N. apply NoDup_app_inv in N. destruct N as (_ & _ & N).
      apply (N c'); [apply (in_map fst) in I; exact I|left; reflexivity].
    + injection I as <- <-. exists k. rewrite dget_dset_same. auto.
  - exists vl. split; [exact E|exact A].
Qed.

Section Search.
  Context (dord : list Z -> list Z) (Hd : forall l, Permutation (dord l) l).
  Context (lhs rhs : list (list Z)) (Hne : forall w, In w (lhs ++ rhs) -> w <> []).
  Context (fs : list Z) (sg vl : list (Z * Z)) (sf vf : Z -> Z).

  Definition wt (rest ds : list Z) : Z := zsum (map (fun cd => snd cd * sf (fst cd)) (combine rest ds)).
  Definition ext (rest : list Z) (tot : Z) (unused ds : list Z) : Prop :=
    length ds = length rest /\ NoDup ds /\ incl ds unused /\
    (forall c d, In (c, d) (combine rest ds) -> In c fs -> d <> 0) /\ tot + wt rest ds = 0.
  Definition asg (mp : list (Z * Z)) (rest ds : list Z) (c : Z) : Z :=
    match dget (combine rest ds) c with Some d => d | None => match dget mp c with Some d => d | None => 0 end end.
  Definition leaf (mp : list (Z * Z)) (rest ds : list Z) : list Z * list Z :=
    (map (value (asg mp rest ds)) lhs, map (value (asg mp rest ds)) rhs).

  Definition good (c : Z) : Prop := dget sg c = Some (sf c) /\ dget vl c = Some (vf c) /\ (vf c | sf c) /\ exists k, 0 <= k /\ vf c = 10 ^ k.

  Lemma wt_cons c rest d ds : wt (c :: rest) (d :: ds) = d * sf c + wt rest ds.
  Proof. unfold wt. cbn [combine map fst snd]. rewrite zsum_cons. reflexivity. Qed.

  Lemma wt_divide v rest ds : (forall c, In c rest -> (v | sf c)) -> (v | wt rest ds).
  Proof using Type.
    revert ds. induction rest as [|c rest IH]; intros ds H; [apply Z.divide_0_r|]. destruct ds as [|d ds]; [apply Z.divide_0_r|].
    rewrite wt_cons. apply Z.divide_add_r; [apply Z.divide_mul_r, H; left; reflexivity|]. apply IH. intros x I. apply H. right; exact I.
  Qed.

  Lemma combine_key (rest : list Z) (ds : list Z) c : ~ In c rest -> dget (combine rest ds) c = None.
  Proof using Type.
    intros N. apply dget_None. intros I. unfold dkeys in I. apply in_map_iff in I. destruct I as ((x & y) & E & I). cbn in E. subst x. apply in_combine_l in I. contradiction.
  Qed.

  Lemma backtrack_ok rest : forall tot unused mp, NoDup rest -> NoDup unused -> NoDup (dkeys mp) ->
    (forall c, In c rest -> good c) -> StronglySorted (fun x y => vf x <= vf y) rest ->
    (forall c, In c rest -> dget mp c = None) ->
    (forall w c, In w (lhs ++ rhs) -> In c w -> In c rest \/ dget mp c <> None) ->
    exists E mp', backtrack dord lhs rhs fs sg vl rest tot unused mp = Ret (map (leaf mp rest) E, mp') /\
      NoDup E /\ (forall ds, In ds E <-> ext rest tot unused ds) /\ NoDup (dkeys mp') /\ forall x, dget mp' x = dget mp x.
  Proof using Hd Hne.
    induction rest as [|c rest IH]; intros tot unused mp Nr Nu Nm G S D L; cbn [backtrack].
    - assert (W : forall ws, incl ws (lhs ++ rhs) -> mapM (word_to_num mp) ws = Ret (map (value (asg mp [] [])) ws)).
      { intros ws I. apply mapM_ret. intros w Iw. apply word_to_num_ok; [apply Hne, I, Iw|]. intros c Ic. unfold asg. cbn [combine dget].
        destruct (L w c (I w Iw) Ic) as [[]|K]. destruct (dget mp c); [reflexivity|contradiction]. }
      assert (X : forall ds, ext [] tot unused ds <-> ds = [] /\ tot = 0).
      { intros ds. unfold ext. split; [intros (A & _ & _ & _ & B); destruct ds; [|discriminate]; cbn in B; split; [reflexivity|lia]|].
        intros (-> & ->). split; [reflexivity|]. split; [constructor|]. split; [intros x []|]. split; [intros ? ? []|reflexivity]. }
      destruct (Z.eqb_spec tot 0) as [E|E].
      + rewrite (W lhs) by (intros w I; apply in_app_iff; left; exact I). cbn [bind]. rewrite (W rhs) by (intros w I; apply in_app_iff; right; exact I). cbn [bind].
        exists [[]], mp. split; [reflexivity|]. split; [constructor; [intros []|constructor]|]. split; [|auto]. intros ds. rewrite X. cbn. split; [intros [<-|[]]; auto|intros (-> & _); auto].
      + exists [], mp. split; [reflexivity|]. split; [constructor|]. split; [|auto]. intros ds. rewrite X. cbn. tauto.
    - inversion Nr as [|? ? Nc Nr']; subst. inversion S as [|? ? S' F]; subst. destruct (G c (or_introl eq_refl)) as (Gs & Gv & Gd & Gk).
      match goal with |- context [foldM ?f (dord unused) ?s] => destruct (foldM_inv f (fun pre st => exists E, fst st = map (leaf mp (c :: rest)) E /\ NoDup E /\
         (forall ds, In ds E <-> ext (c :: rest) tot unused ds /\ exists d ds', ds = d :: ds' /\ In d pre) /\
         NoDup (dkeys (snd st)) /\ forall x, x <> c -> dget (snd st) x = dget mp x) (dord unused) s) as ((acc & mp1) & Ef & E & EA & NE & HE & Nm1 & Dm1) end.
      + exists []. split; [reflexivity|]. split; [constructor|]. split; [|auto]. intros ds. cbn [In]. split; [tauto|]. intros (_ & d & ds' & _ & []).
      + intros pre digit post (acc, mp0) Eu (E & EA & NE & HE & Nm0 & Dm0). cbn [fst snd] in *.
        assert (Iu : In digit unused) by (apply (Permutation_in _ (Hd unused)); rewrite Eu; apply in_app_iff; right; left; reflexivity).
        assert (Np : ~ In digit pre).
        { pose proof (Permutation_NoDup (Permutation_sym (Hd unused)) Nu) as N. rewrite Eu in N. apply NoDup_app_inv in N. destruct N as (_ & _ & N). intros I. apply (N digit I). left; reflexivity. }
        assert (XS : (forall ds', ~ ext (c :: rest) tot unused (digit :: ds')) -> forall ds, In ds E <-> ext (c :: rest) tot unused ds /\ exists d ds', ds = d :: ds' /\ In d (pre ++ [digit])).
        { intros No ds. rewrite HE. split; intros (A & d & ds' & -> & I); split; try exact A; exists d, ds'; (split; [reflexivity|]).
          - apply in_app_iff. left; exact I.
          - apply in_app_iff in I. destruct I as [I|[<-|[]]]; [exact I|]. exfalso. exact (No ds' A). }
        destruct ((digit =? 0) && mem c fs)%bool eqn:Z0.
        * exists (acc, mp0). split; [reflexivity|]. exists E. cbn [fst snd]. split; [exact EA|]. split; [exact NE|]. split; [|auto]. apply XS.
          apply andb_true_iff in Z0. destruct Z0 as (Z0 & M). apply Z.eqb_eq in Z0. apply mem_In in M. intros ds' (_ & _ & _ & K & _). apply (K c digit); [left; reflexivity|exact M|exact Z0].
        * cbn zeta. replace (dgetM sg c) with (Ret (sf c)) by (unfold dgetM; rewrite Gs; reflexivity). cbn [bind].
          assert (CE : exists b, can_extend vl c rest (tot + digit * sf c) = Ret b /\ (b = false -> forall ds', ~ ext (c :: rest) tot unused (digit :: ds'))).
          { unfold can_extend. destruct rest as [|c' rest']; [exists true; split; [reflexivity|discriminate]|].
            destruct (G c' ltac:(right; left; reflexivity)) as (Gs' & Gv' & Gd' & k' & Gk' & Gp').
            replace (dgetM vl c') with (Ret (vf c')) by (unfold dgetM; rewrite Gv'; reflexivity). replace (dgetM vl c) with (Ret (vf c)) by (unfold dgetM; rewrite Gv; reflexivity). cbn [bind].
            destruct (Z.eqb_spec (vf c') (vf c)); [exists true; split; [reflexivity|discriminate]|].
            assert (P : 0 < vf c') by (rewrite Gp'; apply Z.pow_pos_nonneg; lia).
            unfold pymod. destruct (Z.eqb_spec (vf c') 0); [lia|]. cbn [bind]. eexists. split; [reflexivity|]. intros B ds' (_ & _ & _ & _ & K). rewrite wt_cons in K. apply Z.eqb_neq in B. apply B.
            apply Z.mod_divide; [lia|]. replace (tot + digit * sf c) with (- wt (c' :: rest') ds') by lia. apply Z.divide_opp_r, wt_divide.
            intros x I. destruct (G x (or_intror I)) as (_ & _ & Gx & kx & Kx & Px). apply Z.divide_trans with (vf x); [|exact Gx].
            assert (vf c' <= vf x). { destruct I as [<-|I]; [lia|]. inversion S' as [|? ? _ F']; subst. rewrite Forall_forall in F'. exact (F' x I). }
            rewrite Gp', Px in *. apply Z.pow_le_mono_r_iff in H; [|lia|lia]. exists (10 ^ (kx - k')). rewrite <- Z.pow_add_r by lia. f_equal. lia. }
          destruct CE as (b & -> & Cb). cbn [bind]. destruct b.
          -- destruct (IH (tot + digit * sf c) (filter (fun d => negb (d =? digit)) unused) (dset mp0 c digit)) as (E1 & mp' & R & NE1 & HE1 & Nm' & Dm').
             { exact Nr'. } { apply NoDup_filter, Nu. } { apply dset_NoDup, Nm0. } { intros x I. apply G. right; exact I. } { exact S'. }
             { intros x I. rewrite dget_dset_other by (intros ->; contradiction). rewrite Dm0 by (intros ->; contradiction). apply D. right; exact I. }
             { intros w x Iw Ix. destruct (Z.eq_dec x c) as [->|Nx]; [right; rewrite dget_dset_same; discriminate|]. destruct (L w x Iw Ix) as [[K|K]|K]; [congruence|left; exact K|].
               right. rewrite dget_dset_other by congruence. rewrite Dm0 by exact Nx. exact K. }
             rewrite R. cbn [bind]. eexists. split; [reflexivity|]. cbn [fst snd]. exists (E ++ map (cons digit) E1). split; [|split; [|split; [|split]]].
             ++ rewrite map_app, EA, map_map. f_equal. apply map_ext. intros ds. unfold leaf.
                assert (Q : forall x, asg (dset mp0 c digit) rest ds x = asg mp (c :: rest) (digit :: ds) x).
                { intros x. unfold asg. cbn [combine dget]. destruct (Z.eqb_spec c x) as [->|Nx]; [rewrite combine_key by exact Nc; rewrite dget_dset_same; reflexivity|].
                  rewrite dget_dset_other by exact Nx. rewrite Dm0 by congruence. reflexivity. }
                f_equal; apply map_ext; intros w; apply value_ext; intros x _; apply Q.
             ++ apply NoDup_app_intro; [exact NE| |].
                ** apply FinFun.Injective_map_NoDup; [intros u v K; congruence|exact NE1].
                ** intros ds I J. apply HE in I. destruct I as (_ & d & ds' & -> & Id). apply in_map_iff in J. destruct J as (u & K & _). injection K as K _. subst d. contradiction.
             ++ intros ds. rewrite in_app_iff, HE, in_map_iff.
                assert (X : forall ds', ext rest (tot + digit * sf c) (filter (fun d => negb (d =? digit)) unused) ds' <-> ext (c :: rest) tot unused (digit :: ds')).
                { intros ds'. unfold ext. rewrite wt_cons. cbn [length combine]. split.
                  - intros (A1 & A2 & A3 & A4 & A5). split; [lia|]. split; [constructor; [|exact A2]; intros I; apply A3, filter_In in I; destruct I as (_ & I); rewrite Z.eqb_refl in I; discriminate|].
                    split; [intros x [<-|I]; [exact Iu|apply A3, filter_In in I; tauto]|]. split; [|lia]. intros x d [K|I] If.
                    + injection K as <- <-. intros K0. apply mem_In in If. rewrite If, (proj2 (Z.eqb_eq digit 0) K0) in Z0. discriminate.
                    + exact (A4 x d I If).
                  - intros (A1 & A2 & A3 & A4 & A5). inversion A2 as [|? ? A2' A2'']; subst. split; [lia|]. split; [exact A2''|]. split.
                    + intros x I. apply filter_In. split; [apply A3; right; exact I|]. destruct (Z.eqb_spec x digit) as [->|]; [contradiction|reflexivity].
                    + split; [|lia]. intros x d I. apply A4. right; exact I. }
                split.
                ** intros [(A & d & ds' & -> & I)|(ds' & <- & I)].
                   --- split; [exact A|]. exists d, ds'. split; [reflexivity|apply in_app_iff; left; exact I].
                   --- apply HE1, X in I. split; [exact I|]. exists digit, ds'. split; [reflexivity|apply in_app_iff; right; left; reflexivity].
                ** intros (A & d & ds' & -> & I). apply in_app_iff in I. destruct I as [I|[<-|[]]]; [left; split; [exact A|exists d, ds'; auto]|].
                   right. exists ds'. split; [reflexivity|]. apply HE1, X, A.
             ++ exact Nm'.
             ++ intros x Nx. rewrite Dm', dget_dset_other by congruence. apply Dm0, Nx.
          -- eexists. split; [reflexivity|]. cbn [fst snd]. exists E. split; [exact EA|]. split; [exact NE|]. split; [apply XS, Cb; reflexivity|].
             split; [apply dset_NoDup, Nm0|]. intros x Nx. rewrite dget_dset_other by congruence. apply Dm0, Nx.
      + rewrite Ef. cbn [bind fst snd] in *. subst acc. eexists E, _. split; [reflexivity|]. split; [exact NE|]. split; [|split].
        * intros ds. rewrite HE. split; [tauto|]. intros A. split; [exact A|]. destruct A as (A1 & _ & A3 & _). destruct ds as [|d ds]; [discriminate|]. exists d, ds. split; [reflexivity|].
          apply (Permutation_in _ (Permutation_sym (Hd unused))), A3. left; reflexivity.
        * destruct (dmem mp1 c); [apply ddel_NoDup|]; exact Nm1.
        * intros x. destruct (dmem mp1 c) eqn:M.
          -- rewrite dget_ddel by exact Nm1. destruct (Z.eqb_spec c x) as [->|Nx]; [symmetry; apply D; left; reflexivity|apply Dm1; congruence].
          -- destruct (Z.eq_dec x c) as [->|Nx]; [|apply Dm1, Nx]. rewrite (D c (or_introl eq_refl)). unfold dmem in M. destruct (dget mp1 c); [discriminate|reflexivity].
  Qed.
End Search.
