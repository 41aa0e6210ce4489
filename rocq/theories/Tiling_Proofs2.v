(** * Domino and triomino tilings *)
From Coq Require Import ZArith List Bool Lia Sorting.Sorted Sorting.Permutation.
From Verif Require Import Base Lists2 Count Tiling_Model Tiling_Spec Tiling_Proofs.
Import ListNotations.
Open Scope Z_scope.

Lemma listeqb_eq {A} (eqb : A -> A -> bool) : (forall a b, eqb a b = true -> a = b) -> forall l l', listeqb eqb l l' = true -> l = l'.
Proof.
  intros H. induction l as [|x l IH]; intros [|y l']; cbn [listeqb]; try discriminate; [reflexivity|].
  rewrite andb_true_iff. intros (A1 & A2). f_equal; auto.
Qed.

Lemma dkeqb_eq a b : dkeqb a b = true -> a = b.
Proof.
  destruct a as [a1 a2], b as [b1 b2]. unfold dkeqb. cbn [fst snd]. rewrite andb_true_iff. intros (H1 & H2).
  apply listeqb_eq in H1; [|intros x y; apply Z.eqb_eq]. apply listeqb_eq in H2; [|intros x y; apply Z.eqb_eq]. congruence.
Qed.

Lemma difference_shorter {C} (ceqb : C -> C -> bool) u q r : (forall a b, ceqb a b = true <-> a = b) -> NoDup u -> In r u -> In r q ->
  (length (difference ceqb u q) < length u)%nat.
Proof.
  intros Hc N Hr Hq. change (length (r :: difference ceqb u q) <= length u)%nat. apply NoDup_incl_length.
  - constructor; [|apply difference_NoDup, N]. rewrite difference_In by exact Hc. tauto.
  - intros x [<-|Hx]; [exact Hr|]. apply difference_In in Hx; [apply Hx|exact Hc].
Qed.

Definition dperm {A} (ord : nat -> list A -> list A) : Prop := forall i l, Permutation (ord i l) l.

(** ** Dominoes, with cells numbered from 0 *)
Section Domino.
  Context (m n : Z).
  Hypothesis Hn : 1 <= n.
  Context (ord : nat -> list Z -> list Z).
  Hypothesis Hord : dperm ord.

  Definition ispd (p : list Z) : Prop :=
    exists a, 0 <= a /\ (p = [a; a + n] \/ (p = [a; a + 1] /\ (a + 1) mod n <> 0)).

  Lemma ispd_len p : ispd p -> length p = 2%nat.
  Proof. intros (a & _ & [-> | [-> _]]); reflexivity. Qed.

  Lemma ispd_sorted p : ispd p -> StronglySorted Z.lt p.
  Proof. intros (a & _ & [-> | [-> _]]); repeat constructor; lia. Qed.

  Notation tilingZ := (tiling 0 Z.lt ispd).

  Definition dInv (st : tstate (K := list Z * list Z)) : Prop :=
    forall tc tu v, In ((tc, tu), v) (fst st) -> number_of (tilingZ tu) v.

  Lemma free_spec cov p : negb (existsb (fun x => cmem Z.eqb x p) cov) = true <-> forall x, In x p -> ~ In x cov.
  Proof.
    rewrite negb_true_iff. split.
    - intros E x Hx Hc. assert (existsb (fun x => cmem Z.eqb x p) cov = true); [|congruence].
      apply existsb_exists. exists x. split; [exact Hc|]. apply cmem_In; [apply Z.eqb_eq|exact Hx].
    - intros H. destruct (existsb _ cov) eqn:E; [|reflexivity]. apply existsb_exists in E as (x & Hc & E).
      apply cmem_In in E; [|apply Z.eqb_eq]. exfalso. eapply H; eauto.
  Qed.

  Lemma dom_backtrack_ok : forall fuel st cov unc, (length unc < fuel)%nat -> NoDup unc -> unc <> [] ->
    (forall x, In x cov \/ In x unc <-> 0 <= x < m * n) -> (forall x, In x cov -> ~ In x unc) -> dInv st ->
    exists v st', dom_backtrack ord (m * n - 1) n fuel st cov unc = Ret (v, st') /\ dInv st' /\ number_of (tilingZ unc) v.
  Proof.
    induction fuel as [|fuel IH]; intros [D c] cov unc Hf N Hne Hcov Hdis I; [lia|].
    cbn [dom_backtrack].
    destruct (lookup dkeqb D (ord c cov, ord (S c) unc)) as [v|] eqn:El.
    { exists v, (D, S (S c)). split; [reflexivity|]. split; [exact I|].
      apply lookup_In in El; [|apply dkeqb_eq]. apply I in El. revert El. apply number_of_ext. intros T.
      apply tiling_perm. apply Hord. }
    destruct (cmin_spec Z.ltb Z.lt Z.ltb_lt Z.lt_trans Z.lt_trichotomy unc Hne) as (r & Er & Hr & Hmin).
    rewrite Er. cbn [bind].
    match goal with |- context [try_pieces _ ?rec ?cs _ ?st _] =>
      destruct (step_ok 0 Z.eqb Z.lt Z.eqb_eq Z.lt_irrefl Z.lt_trans ispd 2 ltac:(lia) ispd_len ispd_sorted
        (fun p => p) dInv rec unc r cs st N Hr Hmin) as (res & st' & E & I' & R) end.
    - assert (Hnd : NoDup (map snd (filter fst
        [((r + n <=? m * n - 1) && negb (existsb (fun x => cmem Z.eqb x [r; r + n]) cov), [r; r + n]);
         ((r + 1 <=? m * n - 1) && negb ((r + 1) mod n =? 0) && negb (existsb (fun x => cmem Z.eqb x [r; r + 1]) cov), [r; r + 1])])));
        [|rewrite map_id; exact Hnd].
      destruct ((r + n <=? m * n - 1) && _) eqn:E1; destruct ((r + 1 <=? m * n - 1) && _ && _) eqn:E2; cbn [filter fst map snd];
        repeat constructor; try (intros []; fail).
      intros [H|[]]. injection H as H. assert (n = 1) as -> by lia.
      rewrite Z.mod_1_r in E2. cbn in E2. rewrite andb_false_r in E2. discriminate E2.
    - intros b q _ x. reflexivity.
    - intros p. assert (Hr0 : 0 <= r < m * n) by (apply Hcov; auto).
      assert (Hin : forall x, In x unc <-> ~ In x cov /\ 0 <= x < m * n).
      { intros x. split; [intros H; split; [intros H'; exact (Hdis x H' H)|apply Hcov; auto]|].
        intros (H & H'). apply Hcov in H' as [H'|H']; [contradiction|exact H']. }
      split.
      + intros ((a & Ha & Hp) & Hh & Hi). destruct Hp as [-> | [-> Hmod]]; cbn [hd] in Hh; subst a.
        * exists [r; r + n]. split; [left|reflexivity]. f_equal. apply andb_true_iff. split.
          -- apply Z.leb_le. assert (In (r + n) unc) by (apply Hi; cbn; auto). apply Hin in H. lia.
          -- apply free_spec. intros x Hx. apply Hin. apply Hi, Hx.
        * exists [r; r + 1]. split; [right; left|reflexivity]. f_equal. rewrite !andb_true_iff. split; [split|].
          -- apply Z.leb_le. assert (In (r + 1) unc) by (apply Hi; cbn; auto). apply Hin in H. lia.
          -- apply negb_true_iff, Z.eqb_neq, Hmod.
          -- apply free_spec. intros x Hx. apply Hin. apply Hi, Hx.
      + intros (q & [Hq|[Hq|[]]] & ->); injection Hq as Hb <-.
        * apply andb_true_iff in Hb as (Hb & Hfree). apply Z.leb_le in Hb. pose proof (proj1 (free_spec cov [r; r + n]) Hfree) as Hfree0; clear Hfree; rename Hfree0 into Hfree.
          split; [exists r; split; [lia|left; reflexivity]|]. split; [reflexivity|].
          intros x Hx. apply Hin. split; [apply Hfree, Hx|]. destruct Hx as [<-|[<-|[]]]; lia.
        * rewrite !andb_true_iff in Hb. destruct Hb as ((Hb & Hmod) & Hfree). apply Z.leb_le in Hb. pose proof (proj1 (free_spec cov [r; r + 1]) Hfree) as Hfree0; clear Hfree; rename Hfree0 into Hfree.
          apply negb_true_iff, Z.eqb_neq in Hmod.
          split; [exists r; split; [lia|right; split; [reflexivity|exact Hmod]]|]. split; [reflexivity|].
          intros x Hx. apply Hin. split; [apply Hfree, Hx|]. destruct Hx as [<-|[<-|[]]]; lia.
    - exact I.
    - intros st1 q Hq I1 Hnil. cbn beta.
      assert (Hrq : In r q) by (destruct Hq as [Hq|[Hq|[]]]; injection Hq as _ <-; left; reflexivity).
      assert (Hfree : forall x, In x q -> In x unc).
      { assert (Hin : forall x, In x unc <-> ~ In x cov /\ 0 <= x < m * n).
        { intros x. split; [intros H; split; [intros H'; exact (Hdis x H' H)|apply Hcov; auto]|].
          intros (H & H'). apply Hcov in H' as [H'|H']; [contradiction|exact H']. }
        pose proof (proj1 (Hin r) Hr) as (_ & Hr0).
        intros x Hx. apply Hin. destruct Hq as [Hq|[Hq|[]]]; injection Hq as Hb <-; rewrite !andb_true_iff in Hb.
        - destruct Hb as (Hb & Hfree). apply Z.leb_le in Hb. pose proof (proj1 (free_spec cov [r; r + n]) Hfree) as Hfree0; clear Hfree; rename Hfree0 into Hfree. split; [apply Hfree, Hx|].
          destruct Hx as [<-|[<-|[]]]; lia.
        - destruct Hb as ((Hb & _) & Hfree). apply Z.leb_le in Hb. pose proof (proj1 (free_spec cov [r; r + 1]) Hfree) as Hfree0; clear Hfree; rename Hfree0 into Hfree. split; [apply Hfree, Hx|].
          destruct Hx as [<-|[<-|[]]]; lia. }
      apply IH.
      + enough (length (difference Z.eqb unc q) < length unc)%nat by lia.
        apply difference_shorter with (r := r); [apply Z.eqb_eq|exact N|exact Hr|exact Hrq].
      + apply difference_NoDup; apply N.
      + exact Hnil.
      + intros x. rewrite in_app_iff, (difference_In Z.eqb Z.eqb_eq), <- Hcov. specialize (Hfree x).
        split; [tauto|]. intros [H|H]; [tauto|]. destruct (in_dec Z.eq_dec x q); tauto.
      + intros x Hx. rewrite (difference_In Z.eqb Z.eqb_eq). apply in_app_or in Hx as [Hx|Hx]; [|tauto].
        specialize (Hdis x Hx). tauto.
      + exact I1.
    - rewrite E. cbn [bind]. destruct res as [s|v].
      + exists s. eexists. split; [reflexivity|]. split; [|exact R].
        intros tc tu v [Hk|Hk]; [|apply (I' tc tu v Hk)]. injection Hk as _ <- <-.
        revert R. apply number_of_ext. intros T. apply tiling_perm. symmetry. apply Hord.
      + exists v, st'. split; [reflexivity|]. split; [exact I'|exact R].
  Qed.
End Domino.
