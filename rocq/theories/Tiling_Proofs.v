(** * The counting search over tilings *)
From Coq Require Import ZArith List Bool Lia Sorting.Sorted Sorting.Permutation.
From Verif Require Import Base Lists2 Count Tiling_Model.
Import ListNotations.
Open Scope Z_scope.

Section Engine.
  Context {C K : Type} (d : C) (ceqb cltb : C -> C -> bool) (clt : C -> C -> Prop).
  Hypothesis ceqb_eq : forall a b, ceqb a b = true <-> a = b.
  Hypothesis cltb_lt : forall a b, cltb a b = true <-> clt a b.
  Hypothesis clt_irr : forall a, ~ clt a a.
  Hypothesis clt_trans : forall a b c, clt a b -> clt b c -> clt a c.
  Hypothesis clt_tot : forall a b, clt a b \/ a = b \/ clt b a.
  Context (isp : list C -> Prop) (k : nat).
  Hypothesis kpos : (0 < k)%nat.
  Hypothesis isp_len : forall p, isp p -> length p = k.
  Hypothesis isp_sorted : forall p, isp p -> StronglySorted clt p.

  Definition tiling (U : list C) (T : list (list C)) : Prop :=
    Forall isp T /\ StronglySorted (fun p q => clt (hd d p) (hd d q)) T /\ Permutation (concat T) U.

  Lemma cmem_In x l : cmem ceqb x l = true <-> In x l.
  Proof.
    unfold cmem. rewrite existsb_exists. split.
    - intros (y & Hy & E). apply ceqb_eq in E. subst. exact Hy.
    - intros H. exists x. split; [exact H|]. apply ceqb_eq. reflexivity.
  Qed.

  Lemma difference_In x u p : In x (difference ceqb u p) <-> In x u /\ ~ In x p.
  Proof.
    unfold difference. rewrite filter_In. rewrite <- (cmem_In x p).
    destruct (cmem ceqb x p); cbn; intuition congruence.
  Qed.

  Lemma difference_NoDup u p : NoDup u -> NoDup (difference ceqb u p).
  Proof. apply NoDup_filter. Qed.

  Lemma cmin_spec u : u <> [] -> exists y, cmin cltb u = Ret y /\ In y u /\ forall z, In z u -> z = y \/ clt y z.
  Proof.
    destruct u as [|x u]; [congruence|]. intros _. unfold cmin.
    set (f := fun m y => if cltb y m then y else m).
    enough (H : forall l x, In (fold_left f l x) (x :: l) /\ forall z, In z (x :: l) -> z = fold_left f l x \/ clt (fold_left f l x) z).
    { exists (fold_left f u x). split; [reflexivity|]. apply H. }
    clear u x. induction l as [|y l IH]; intros x.
    - cbn. split; [auto|]. intros z [->|[]]. auto.
    - cbn [fold_left]. destruct (IH (f x y)) as (A & B). split.
      + destruct A as [A|A]; [|right; right; exact A]. rewrite <- A. unfold f. destruct (cltb y x); cbn; auto.
      + assert (Hx : f x y = x \/ clt (f x y) x).
        { unfold f. destruct (cltb y x) eqn:E; [right; apply cltb_lt, E|left; reflexivity]. }
        assert (Hy : f x y = y \/ clt (f x y) y).
        { unfold f. destruct (cltb y x) eqn:E; [left; reflexivity|].
          destruct (clt_tot x y) as [H|[H|H]]; [right; exact H|left; exact H|]. apply cltb_lt in H. congruence. }
        assert (Hf : f x y = fold_left f l (f x y) \/ clt (fold_left f l (f x y)) (f x y)) by (apply B; left; reflexivity).
        intros z [<-|[<-|Hz]]; [ | |apply B; right; exact Hz].
        * destruct Hf as [Hf|Hf]; destruct Hx as [Hx|Hx]; rewrite <- ?Hf; rewrite ?Hx in *; auto.
          right. eapply clt_trans; eauto.
        * destruct Hf as [Hf|Hf]; destruct Hy as [Hy|Hy]; rewrite <- ?Hf; rewrite ?Hy in *; auto.
          right. eapply clt_trans; eauto.
  Qed.

  Lemma isp_cons p : isp p -> exists t, p = hd d p :: t /\ Forall (clt (hd d p)) t.
  Proof.
    intros H. pose proof (isp_len p H) as L. pose proof (isp_sorted p H) as S. destruct p as [|x t]; [cbn in L; lia|].
    exists t. split; [reflexivity|]. inversion S; subst. assumption.
  Qed.

  Lemma isp_NoDup p : isp p -> NoDup p.
  Proof.
    intros H. pose proof (isp_sorted p H) as S. clear H. induction S as [|x l S IH F]; [constructor|].
    constructor; [|exact IH]. intros Hx. rewrite Forall_forall in F. apply (clt_irr x). apply F, Hx.
  Qed.

  Lemma isp_hd_In p : isp p -> In (hd d p) p.
  Proof. intros H. destruct (isp_cons p H) as (t & E & _). rewrite E. left. reflexivity. Qed.

  Lemma sorted_ext p q : StronglySorted clt p -> StronglySorted clt q -> Permutation p q -> p = q.
  Proof.
    intros Sp. revert q. induction Sp as [|x p Sp IH F]; intros q Sq P.
    - apply Permutation_nil in P. auto.
    - destruct q as [|y q]; [apply Permutation_sym, Permutation_nil in P; discriminate|].
      inversion Sq as [|? ? Sq' Fq]; subst. rewrite Forall_forall in F, Fq.
      assert (x = y) as <-.
      { assert (Hx : In x (y :: q)) by (eapply Permutation_in; [exact P|left; reflexivity]).
        assert (Hy : In y (x :: p)) by (eapply Permutation_in; [apply Permutation_sym, P|left; reflexivity]).
        destruct Hx as [Hx|Hx]; [auto|]. destruct Hy as [Hy|Hy]; [auto|].
        exfalso. apply (clt_irr x). eapply clt_trans; [apply F, Hy|apply Fq, Hx]. }
      f_equal. apply IH; [exact Sq'|]. eapply Permutation_cons_inv. exact P.
  Qed.

  Lemma tiling_perm U V T : Permutation U V -> tiling U T <-> tiling V T.
  Proof.
    intros P. unfold tiling. split; intros (A & B & D); (split; [exact A|split; [exact B|]]).
    - rewrite D. exact P.
    - rewrite D. symmetry. exact P.
  Qed.

  Lemma difference_perm U p R : NoDup U -> Permutation U (p ++ R) -> Permutation R (difference ceqb U p).
  Proof.
    intros N P. assert (N' : NoDup (p ++ R)) by (eapply Permutation_NoDup; eauto).
    apply NoDup_same_perm.
    - apply NoDup_app_inv in N'. apply N'.
    - apply difference_NoDup, N.
    - intros x. rewrite difference_In. split.
      + intros H. split; [eapply Permutation_in; [apply Permutation_sym, P|]; apply in_or_app; auto|].
        intros Hp. revert Hp H. apply NoDup_app_inv in N'. apply N'.
      + intros (H & Hp). assert (I : In x (p ++ R)) by (eapply Permutation_in; eauto).
        apply in_app_or in I. tauto.
  Qed.

  Lemma perm_difference U p : NoDup U -> NoDup p -> incl p U -> Permutation U (p ++ difference ceqb U p).
  Proof.
    intros N Np I. apply NoDup_same_perm; [exact N| |].
    - apply NoDup_app_intro; [exact Np|apply difference_NoDup, N|]. intros x H H'. apply difference_In in H'. tauto.
    - intros x. rewrite in_app_iff, difference_In. split.
      + intros H. destruct (cmem ceqb x p) eqn:E; [left; apply cmem_In, E|right; split; [exact H|]].
        intros Hp. apply cmem_In in Hp. congruence.
      + intros [H|[H _]]; auto.
  Qed.

  Lemma tiling_step U r T : NoDup U -> In r U -> (forall z, In z U -> z = r \/ clt r z) ->
    tiling U T <-> exists p T', T = p :: T' /\ isp p /\ hd d p = r /\ incl p U /\ tiling (difference ceqb U p) T'.
  Proof.
    intros N Hr Hmin. split.
    - intros (A & B & P). destruct T as [|p T'].
      { cbn in P. apply Permutation_nil in P. subst. destruct Hr. }
      exists p, T'. split; [reflexivity|]. inversion_clear A as [|? ? Ap A']. inversion_clear B as [|? ? B' Bp].
      cbn [concat] in P.
      assert (Ip : incl p U) by (intros x Hx; eapply Permutation_in; [exact P|apply in_or_app; auto]).
      split; [exact Ap|]. split; [|split; [exact Ip|]].
      + assert (Hr' : In r (p ++ concat T')) by (eapply Permutation_in; [apply Permutation_sym, P|exact Hr]).
        pose proof (isp_hd_In p Ap) as Hh. apply in_app_or in Hr' as [Hr'|Hr'].
        * destruct (isp_cons p Ap) as (t & E & F). rewrite E in Hr'. destruct Hr' as [Hr'|Hr']; [exact Hr'|].
          rewrite Forall_forall in F. specialize (F r Hr'). destruct (Hmin (hd d p) (Ip _ Hh)) as [->|H]; [reflexivity|].
          exfalso. apply (clt_irr r). eapply clt_trans; eauto.
        * apply in_concat in Hr' as (q & Hq & Hr'). rewrite Forall_forall in A', Bp.
          specialize (A' q Hq). specialize (Bp q Hq).
          assert (L : hd d q = r \/ clt (hd d q) r).
          { destruct (isp_cons q A') as (t & E & F). rewrite E in Hr'. destruct Hr' as [Hr'|Hr']; [auto|].
            rewrite Forall_forall in F. auto. }
          assert (L' : clt (hd d p) r) by (destruct L as [<-|L]; [exact Bp|eapply clt_trans; eauto]).
          destruct (Hmin (hd d p) (Ip _ Hh)) as [H|H]; [exact H|]. exfalso. apply (clt_irr r). eapply clt_trans; eauto.
      + split; [exact A'|]. split; [exact B'|]. apply difference_perm; [exact N|]. symmetry. exact P.
    - intros (p & T' & -> & Ap & Hh & Ip & A' & B' & P). split; [constructor; assumption|]. split.
      + constructor; [exact B'|]. rewrite Forall_forall in *. intros q Hq. rewrite Hh.
        assert (Hin : In (hd d q) (difference ceqb U p)).
        { eapply Permutation_in; [exact P|]. apply in_concat. exists q. split; [exact Hq|]. apply isp_hd_In, A', Hq. }
        apply difference_In in Hin as (H1 & H2). destruct (Hmin _ H1) as [H|H]; [|exact H].
        exfalso. apply H2. rewrite H, <- Hh. apply isp_hd_In, Ap.
      + cbn [concat]. rewrite P. symmetry. apply perm_difference; [exact N|apply isp_NoDup, Ap|exact Ip].
  Qed.

  (** A piece covering everything is the only tiling. *)
  Lemma tiling_full U r p : NoDup U -> In r U -> (forall z, In z U -> z = r \/ clt r z) ->
    isp p -> hd d p = r -> incl p U -> difference ceqb U p = [] -> number_of (tiling U) 1.
  Proof.
    intros N Hr Hmin Ap Hh Ip E.
    assert (P : Permutation U p).
    { pose proof (perm_difference U p N (isp_NoDup p Ap) Ip) as P. rewrite E, app_nil_r in P. exact P. }
    apply (number_of_one _ [p]). intros T. rewrite (tiling_step U r T N Hr Hmin). split.
    - intros (q & T' & -> & Aq & Hq & Iq & Aq' & _ & P').
      assert (Pq : Permutation q p).
      { apply NoDup_Permutation_bis; [apply isp_NoDup, Aq|rewrite (isp_len p Ap), (isp_len q Aq); lia|].
        intros x Hx. eapply Permutation_in; [exact P|]. apply Iq, Hx. }
      assert (q = p) as -> by (apply sorted_ext; [apply isp_sorted, Aq|apply isp_sorted, Ap|exact Pq]).
      rewrite E in P'. apply Permutation_sym, Permutation_nil in P'. destruct T' as [|s T']; [reflexivity|].
      inversion_clear Aq' as [|? ? As _]. destruct (isp_cons s As) as (t & Es & _). rewrite Es in P'. discriminate P'.
    - intros ->. exists p, []. rewrite E. split; [reflexivity|]. split; [exact Ap|]. split; [exact Hh|]. split; [exact Ip|].
      split; [constructor|]. split; [constructor|]. constructor.
  Qed.

  Context (norm : list C -> list C).

  Definition starts (U : list C) (cs : list (bool * list C)) (T : list (list C)) : Prop :=
    exists c T', In (true, c) cs /\ T = norm c :: T' /\ tiling (difference ceqb U c) T'.

  Lemma try_pieces_ok (Inv : tstate (K := K) -> Prop) rec U : forall cs st ss,
    NoDup (map norm (map snd (filter fst cs))) -> Inv st ->
    (forall st c, In (true, c) cs -> Inv st -> difference ceqb U c <> [] ->
       exists v st', rec st c (difference ceqb U c) = Ret (v, st') /\ Inv st' /\ number_of (tiling (difference ceqb U c)) v) ->
    exists r st', try_pieces ceqb rec cs U st ss = Ret (r, st') /\ Inv st' /\ match r with
      | inr v => v = 1 /\ exists c, In (true, c) cs /\ difference ceqb U c = []
      | inl s => number_of (starts U cs) (s - ss)
      end.
  Proof.
    induction cs as [|[b c] cs IH]; intros st ss N I H.
    - exists (inl ss), st. split; [reflexivity|]. split; [exact I|]. replace (ss - ss) with 0 by lia.
      apply number_of_none. intros T (c & T' & [] & _).
    - destruct b; cbn [try_pieces].
      + cbn [filter fst map] in N. inversion_clear N as [|? ? Nc N'].
        destruct (difference ceqb U c) as [|x l] eqn:E.
        * exists (inr 1), st. split; [reflexivity|]. split; [exact I|]. split; [reflexivity|]. exists c. split; [left; reflexivity|exact E].
        * destruct (H st c) as (v & st1 & E1 & I1 & V); [left; reflexivity|exact I|rewrite E; discriminate|].
          rewrite E in E1. rewrite E1. cbn [bind].
          destruct (IH st1 (ss + v) N' I1) as (r & st2 & E2 & I2 & R).
          { intros st' c' Hc. apply H. right. exact Hc. }
          exists r, st2. split; [exact E2|]. split; [exact I2|]. destruct r as [s|w].
          -- replace (s - ss) with (v + (s - (ss + v))) by lia.
             apply (number_of_ext (fun T => (exists T', T = norm c :: T' /\ tiling (difference ceqb U c) T') \/ starts U cs T)).
             ++ intros T. split.
                ** intros [(T' & HT & Ht)|(c' & T' & Hc & HT)]; [exists c, T'|exists c', T']; cbn [In]; auto.
                ** intros (c' & T' & [Hc|Hc] & HT); [injection Hc as <-; left; exists T'; auto|right; exists c', T'; auto].
             ++ apply number_of_or; [| |exact R].
                ** intros T (T' & HT & _) (c' & T'' & Hc & HT' & _). apply Nc. rewrite HT in HT'. injection HT' as Hn _.
                   rewrite Hn. apply in_map. apply (in_map snd _ (true, c')). apply filter_In. split; [exact Hc|reflexivity].
                ** revert V. apply (number_of_bij _ _ (fun T' => norm c :: T') (fun T => tl T)).
                   --- intros T' HT. split; [exists T'; split; [reflexivity|exact HT]|reflexivity].
                   --- intros T (T' & -> & HT). split; [exact HT|reflexivity].
          -- destruct R as (R1 & c' & Hc & R2). split; [exact R1|]. exists c'. split; [right; exact Hc|exact R2].
      + destruct (IH st ss) as (r & st2 & E2 & I2 & R).
        * exact N.
        * exact I.
        * intros st' c' Hc. apply H. right. exact Hc.
        * exists r, st2. split; [exact E2|]. split; [exact I2|]. destruct r as [s|w].
          -- revert R. apply number_of_ext. intros T. unfold starts. split; intros (c' & T' & Hc & HT); exists c', T'.
             ++ split; [right; exact Hc|exact HT].
             ++ destruct Hc as [Hc|Hc]; [discriminate Hc|]. split; [exact Hc|exact HT].
          -- destruct R as (R1 & c' & Hc & R2). split; [exact R1|]. exists c'. split; [right; exact Hc|exact R2].
  Qed.

  Lemma difference_ext U p q : (forall x, In x p <-> In x q) -> difference ceqb U p = difference ceqb U q.
  Proof.
    intros H. unfold difference. apply filter_ext. intros x. f_equal.
    destruct (cmem ceqb x p) eqn:E, (cmem ceqb x q) eqn:E'; try reflexivity; exfalso.
    - apply cmem_In, H, cmem_In in E. congruence.
    - apply cmem_In, H, cmem_In in E'. congruence.
  Qed.

  (** The value computed at an uncovered set U with smallest cell r. *)
  Lemma step_ok (Inv : tstate (K := K) -> Prop) rec U r cs st : NoDup U -> In r U -> (forall z, In z U -> z = r \/ clt r z) ->
    NoDup (map norm (map snd (filter fst cs))) ->
    (forall b c, In (b, c) cs -> forall x, In x (norm c) <-> In x c) ->
    (forall p, isp p /\ hd d p = r /\ incl p U <-> exists c, In (true, c) cs /\ p = norm c) ->
    Inv st ->
    (forall st c, In (true, c) cs -> Inv st -> difference ceqb U c <> [] ->
       exists v st', rec st c (difference ceqb U c) = Ret (v, st') /\ Inv st' /\ number_of (tiling (difference ceqb U c)) v) ->
    exists r st', try_pieces ceqb rec cs U st 0 = Ret (r, st') /\ Inv st' /\ number_of (tiling U) (match r with inr v => v | inl s => s end).
  Proof.
    intros N Hr Hmin Nc Hn Hc I H.
    destruct (try_pieces_ok Inv rec U cs st 0 Nc I H) as (res & st' & E & I' & R).
    exists res, st'. split; [exact E|]. split; [exact I'|]. destruct res as [s|v].
    - rewrite Z.sub_0_r in R. revert R. apply number_of_ext. intros T. rewrite (tiling_step U r T N Hr Hmin). split.
      + intros (c & T' & Hin & -> & HT). exists (norm c), T'. split; [reflexivity|].
        destruct (proj2 (Hc (norm c))) as (A & B & D); [exists c; auto|].
        split; [exact A|]. split; [exact B|]. split; [exact D|].
        rewrite (difference_ext U (norm c) c); [exact HT|]. apply (Hn true), Hin.
      + intros (p & T' & -> & Ap & Hh & Ip & HT). destruct (proj1 (Hc p)) as (c & Hin & ->); [auto|].
        exists c, T'. split; [exact Hin|]. split; [reflexivity|].
        rewrite (difference_ext U c (norm c)); [exact HT|]. intros x. symmetry. apply (Hn true), Hin.
    - destruct R as (-> & c & Hin & Ec). destruct (proj2 (Hc (norm c))) as (A & B & D); [exists c; auto|].
      apply (tiling_full U r (norm c) N Hr Hmin A B D).
      rewrite (difference_ext U (norm c) c); [exact Ec|]. apply (Hn true), Hin.
  Qed.

  Lemma lookup_In (keqb : K -> K -> bool) D q v : (forall a b, keqb a b = true -> a = b) -> lookup keqb D q = Some v -> In (q, v) D.
  Proof.
    intros Hk. induction D as [|[q' w] D IH]; cbn [lookup]; [discriminate|].
    destruct (keqb q q') eqn:E; [intros [= ->]; apply Hk in E; subst; left; reflexivity|intros H; right; auto].
  Qed.
End Engine.
