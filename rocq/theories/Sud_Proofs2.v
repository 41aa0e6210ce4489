(** * Proofs about the sudoku solver: covers and completions *)
From Coq Require Import ZArith List Bool Lia Permutation.
From Verif Require Import Base Py Dict Lists2 AlgX_Model AlgX_Spec Sud_Spec Sud_Model Sud_Proofs.
Import ListNotations.
Open Scope Z_scope.

Definition dig (x : Z) : Prop := 0 <= x <= 9.

Lemma code_inj k a b k' a' b' : dig a -> dig b -> dig a' -> dig b' -> code k a b = code k' a' b' -> k = k' /\ a = a' /\ b = b'.
Proof. unfold dig, code. intros. lia. Qed.

Lemma code_decode k a b : 0 <= k -> dig a -> dig b -> code k a b / 100 = k /\ code k a b / 10 mod 10 = a /\ code k a b mod 10 = b.
Proof.
  unfold dig, code. intros Hk Ha Hb. split; [|split].
  - symmetry. apply (Z.div_unique _ 100 k (a * 10 + b)); lia.
  - assert (E : (k * 100 + a * 10 + b) / 10 = 10 * k + a) by (symmetry; apply (Z.div_unique _ 10 (10 * k + a) b); lia). rewrite E. symmetry. apply (Z.mod_unique _ 10 k a); lia.
  - symmetry. apply (Z.mod_unique _ 10 (10 * k + a) b); lia.
Qed.

Definition ok3 (t : Z * Z * Z) : Prop := let '(r, c, d) := t in 0 <= r < 9 /\ 0 <= c < 9 /\ 1 <= d <= 9.

Lemma block_range r c : 0 <= r < 9 -> 0 <= c < 9 -> dig (block r c).
Proof.
  intros Hr Hc. unfold dig, block. pose proof (Z.div_mod r 3 ltac:(lia)). pose proof (Z.mod_pos_bound r 3 ltac:(lia)). pose proof (Z.div_mod c 3 ltac:(lia)). pose proof (Z.mod_pos_bound c 3 ltac:(lia)). lia.
Qed.

(** What an element shared by two triples says. *)
Lemma ents_shared r c d r' c' d' x : ok3 (r, c, d) -> ok3 (r', c', d') -> In x (ents (r, c, d)) -> In x (ents (r', c', d')) ->
  (r = r' /\ c = c') \/ (d = d' /\ (r = r' \/ c = c' \/ block r c = block r' c')).
Proof.
  intros (R & C & D) (R' & C' & D') I I'. pose proof (block_range r c R C) as B. pose proof (block_range r' c' R' C') as B'.
  cbn [ents In] in I, I'. unfold dig in *.
  destruct I as [<-|[<-|[<-|[<-|[]]]]], I' as [I'|[I'|[I'|[I'|[]]]]]; apply code_inj in I'; unfold dig; try lia.
Qed.

Lemma ents_NoDup t : ok3 t -> NoDup (ents t).
Proof.
  destruct t as ((r, c), d). intros (R & C & D). pose proof (block_range r c R C) as B. unfold dig in B. unfold ents, code.
  repeat constructor; cbn [In]; lia.
Qed.

Section Covers.
  Context (eord : list Z -> list Z) (He : forall l, Permutation (eord l) l).
  Context (M : list (list Z)) (target : list Z) (HM : forall r c, 0 <= r < 9 -> 0 <= c < 9 -> dig (mget M r c)).
  Notation V := (triples M).
  Notation ev := (fun t => eord (ents t)).
  Notation sets := (map ev V).
  Context (Ht : forall x, In x target <-> exists t, In t V /\ In x (ents t)).

  Lemma triples_ok t : In t V -> ok3 t.
  Proof using HM.
    destruct t as ((r, c), d). rewrite triples_In. intros (R & C & D). unfold ok3. split; [exact R|]. split; [exact C|]. specialize (HM r c R C). unfold dig in HM.
    unfold options in D. destruct (Z.eqb_spec (mget M r c) 0); [apply zrange_In in D; lia|]. destruct D as [<-|[]]. lia.
  Qed.

  Lemma ev_In t x : In x (ev t) <-> In x (ents t).
  Proof using He. split; intros I; [apply (Permutation_in _ (He _)), I|apply (Permutation_in _ (Permutation_sym (He _))), I]. Qed.

  Definition tcover (T : list (Z * Z * Z)) : Prop := incl T V /\ (forall x, In x target -> exists t, In t T /\ In x (ents t)) /\
    (forall x t t', In x target -> In t T -> In t' T -> In x (ents t) -> In x (ents t') -> t = t').

  Definition at_ (i : Z) : Z * Z * Z := nth (Z.to_nat i) V (0, 0, 0).

  Lemma set_at_ev i : 0 <= i < Z.of_nat (length sets) -> In (at_ i) V /\ set_at sets i = ev (at_ i).
  Proof using Type.
    rewrite map_length. intros H. unfold at_, set_at. split; [apply nth_In; lia|]. rewrite (nth_indep _ [] (ev (0, 0, 0))) by (rewrite map_length; lia). apply (map_nth ev).
  Qed.

  Lemma cover_triples I : cover_of sets target I -> tcover (map at_ I) /\ map (set_at sets) I = map ev (map at_ I).
  Proof using He.
    intros (N & C1 & C2). assert (P : forall i, In i I -> In (at_ i) V /\ set_at sets i = ev (at_ i)) by (intros i Ii; apply set_at_ev, C1, Ii). split.
    - split; [|split].
      + intros t It. apply in_map_iff in It. destruct It as (i & <- & Ii). apply P, Ii.
      + intros x Ix. destruct (C2 x Ix) as (i & (Ii & Ji) & _). exists (at_ i). split; [apply in_map, Ii|]. rewrite (proj2 (P i Ii)) in Ji. apply ev_In, Ji.
      + intros x t t' Ix It It' Jt Jt'. apply in_map_iff in It, It'. destruct It as (i & <- & Ii), It' as (i' & <- & Ii'). destruct (C2 x Ix) as (k & _ & U).
        rewrite <- (U i), <- (U i'); [reflexivity| |]; (split; [assumption|]).
        * rewrite (proj2 (P i' Ii')). apply ev_In, Jt'.
        * rewrite (proj2 (P i Ii)). apply ev_In, Jt.
    - rewrite map_map. apply map_ext_in. intros i Ii. apply P, Ii.
  Qed.

  Lemma indices T : incl T V -> exists I, map at_ I = T /\ forall i, In i I -> 0 <= i < Z.of_nat (length sets).
  Proof using Type.
    induction T as [|t T IH]; intros H; [exists []; split; [reflexivity|intros i []]|].
    destruct IH as (I & E & B); [intros x Ix; apply H; right; exact Ix|]. destruct (In_nth V t (0, 0, 0) (H t (or_introl eq_refl))) as (n & Ln & En).
    exists (Z.of_nat n :: I). split; [cbn [map]; rewrite E; unfold at_; rewrite Nat2Z.id, En; reflexivity|]. intros i [<-|Ii]; [rewrite map_length; lia|apply B, Ii].
  Qed.

  Lemma triples_cover T : NoDup T -> tcover T -> exists I, cover_of sets target I.
  Proof using He Ht.
    intros N (T1 & T2 & T3). destruct (indices T T1) as (I & E & B). exists I. split; [|split].
    - rewrite <- E in N. apply NoDup_map_inv in N. exact N.
    - intros i Ii. split; [apply B, Ii|]. destruct (set_at_ev i (B i Ii)) as (Q1 & Q2). rewrite Q2. split.
      + intros K. destruct (at_ i) as ((r, c), d). assert (J : In (code 0 r c) (ev (r, c, d))) by (apply ev_In; left; reflexivity). cbn beta in J. cbn beta in K. rewrite K in J. destruct J.
      + intros x Ix. apply Ht. exists (at_ i). split; [exact Q1|apply ev_In, Ix].
    - intros x Ix. destruct (T2 x Ix) as (t & It & Jt). pose proof It as It'. rewrite <- E in It'. apply in_map_iff in It'. destruct It' as (i & Ei & Ii). exists i. split.
      + split; [exact Ii|]. rewrite (proj2 (set_at_ev i (B i Ii))), Ei. apply ev_In, Jt.
      + intros i' (Ii' & Ji'). rewrite (proj2 (set_at_ev i' (B i' Ii'))) in Ji'. rewrite ev_In in Ji'.
        assert (K : t = at_ i') by (apply (T3 x); [exact Ix|exact It|rewrite <- E; apply in_map, Ii'|exact Jt|exact Ji']). rewrite <- Ei in K. clear - K N E B Ii Ii'.
        rewrite <- E in N. clear E. induction I as [|y I IH]; [destruct Ii|]. cbn [map] in N. inversion N as [|? ? Ny N']; subst. destruct Ii as [->|Ii], Ii' as [->|Ii']; [reflexivity| | |].
        * exfalso. apply Ny. rewrite K. apply in_map, Ii'.
        * exfalso. apply Ny. rewrite <- K. apply in_map, Ii.
        * apply IH; auto. intros z Iz. apply B. right; exact Iz.
  Qed.

  (** ** From a cover to a filled grid *)
  Lemma target_cell r c : 0 <= r < 9 -> 0 <= c < 9 -> In (code 0 r c) target.
  Proof using Ht.
    intros R C. apply Ht. unfold options. exists (r, c, if mget M r c =? 0 then 1 else mget M r c). split; [|left; reflexivity]. apply triples_In. split; [exact R|]. split; [exact C|]. unfold options.
    destruct (mget M r c =? 0); [apply zrange_In; lia|left; reflexivity].
  Qed.

  Lemma target_ents t x : In t V -> In x (ents t) -> In x target.
  Proof using Ht. intros It Ix. apply Ht. exists t. auto. Qed.

  Lemma cover_cell T r c : tcover T -> 0 <= r < 9 -> 0 <= c < 9 -> exists d, In (r, c, d) T.
  Proof using Ht HM.
    intros (T1 & T2 & T3) R C. destruct (T2 _ (target_cell r c R C)) as (((r', c'), d') & It & Ix). exists d'.
    pose proof (triples_ok _ (T1 _ It)) as (R' & C' & D'). pose proof (block_range r' c' R' C') as B'. unfold dig in B'. cbn [ents In] in Ix.
    destruct Ix as [E|[E|[E|[E|[]]]]]; apply code_inj in E; unfold dig; try lia. destruct E as (_ & -> & ->). exact It.
  Qed.

  Lemma cover_distinct T r c d r' c' : tcover T -> In (r, c, d) T -> In (r', c', d) T -> r = r' \/ c = c' \/ block r c = block r' c' -> (r, c) = (r', c').
  Proof using Ht.
    intros (T1 & T2 & T3) I I' H.
    assert (K : exists x, In x (ents (r, c, d)) /\ In x (ents (r', c', d))).
    { destruct H as [->|[->|H]]; [exists (code 1 d r')|exists (code 2 d c')|exists (code 3 d (block r c))]; cbn [ents In]; try tauto. rewrite <- H. tauto. }
    destruct K as (x & K & K'). assert (E : (r, c, d) = (r', c', d)) by (apply (T3 x); [apply (target_ents (r, c, d)); [apply T1, I|exact K]|exact I|exact I'|exact K|exact K']). congruence.
  Qed.

  (** ** From a filled grid to a cover *)
  Lemma pigeon (g : Z -> Z) : (forall k, 0 <= k < 9 -> 1 <= g k <= 9) -> (forall k k', 0 <= k < 9 -> 0 <= k' < 9 -> k <> k' -> g k <> g k') ->
    forall d, 1 <= d <= 9 -> exists k, 0 <= k < 9 /\ g k = d.
  Proof using Type.
    intros H1 H2 d Hd. assert (N : NoDup (map g (zrange 0 9))).
    { assert (Q : forall l, NoDup l -> (forall x, In x l -> 0 <= x < 9) -> NoDup (map g l)).
      { induction 1 as [|x l Nx N IH]; intros H; cbn [map]; [constructor|]. constructor; [|apply IH; intros; apply H; right; assumption].
        intros I. apply in_map_iff in I. destruct I as (y & E & Iy). apply (H2 y x); [apply H; right; exact Iy|apply H; left; reflexivity|intros ->; contradiction|exact E]. }
      apply Q; [apply zrange_NoDup|intros x I; apply zrange_In in I; exact I]. }
    assert (J : incl (zrange 1 10) (map g (zrange 0 9))).
    { apply NoDup_length_incl; [exact N|rewrite map_length, !zrange_length; apply le_n|]. intros y I. apply in_map_iff in I. destruct I as (k & <- & Ik). apply zrange_In in Ik. apply zrange_In. specialize (H1 k Ik). lia. }
    specialize (J d ltac:(apply zrange_In; lia)). apply in_map_iff in J. destruct J as (k & E & Ik). apply zrange_In in Ik. exists k. auto.
  Qed.

  Definition filled (f : Z -> Z -> Z) : Prop :=
    (forall r c, 0 <= r < 9 -> 0 <= c < 9 -> 1 <= f r c <= 9 /\ (mget M r c <> 0 -> f r c = mget M r c)) /\
    (forall r c r' c', 0 <= r < 9 -> 0 <= c < 9 -> 0 <= r' < 9 -> 0 <= c' < 9 -> (r, c) <> (r', c') -> r = r' \/ c = c' \/ block r c = block r' c' -> f r c <> f r' c').

  Lemma filled_cover f : filled f -> exists I, cover_of sets target I.
  Proof using He Ht HM.
    intros (F1 & F2). apply (triples_cover (flat_map (fun r => map (fun c => (r, c, f r c)) (zrange 0 9)) (zrange 0 9))).
    { apply NoDup_flat; [apply zrange_NoDup| |].
      - intros r _. apply FinFun.Injective_map_NoDup; [intros b b' E; congruence|apply zrange_NoDup].
      - intros r r' z _ _ I I'. apply in_map_iff in I, I'. destruct I as (c & <- & _), I' as (c' & E & _). congruence. }
    set (T := flat_map _ _).
    assert (IT : forall r c d, In (r, c, d) T <-> 0 <= r < 9 /\ 0 <= c < 9 /\ d = f r c).
    { intros r c d. unfold T. rewrite in_flat_map. split.
      - intros (a & I & J). apply in_map_iff in J. destruct J as (b & E & J). injection E as -> -> <-. apply zrange_In in I, J. auto.
      - intros (R & C & ->). exists r. split; [apply zrange_In; assumption|]. apply in_map_iff. exists c. split; [reflexivity|apply zrange_In; assumption]. }
    clearbody T.
    assert (TV : incl T V).
    { intros ((r, c), d) I. apply IT in I. destruct I as (R & C & ->). apply triples_In. split; [exact R|]. split; [exact C|]. unfold options. destruct (F1 r c R C) as (G1 & G2).
      destruct (Z.eqb_spec (mget M r c) 0); [apply zrange_In; lia|left; symmetry; apply G2; assumption]. }
    split; [exact TV|]. split.
    - intros x Ix. apply Ht in Ix. destruct Ix as (((r, c), d) & It & Ix). pose proof (triples_ok _ It) as (R & C & D). cbn [ents In] in Ix.
      destruct Ix as [<-|[<-|[<-|[<-|[]]]]].
      + exists (r, c, f r c). split; [apply IT; auto|left; reflexivity].
      + destruct (pigeon (fun k => f r k)) with (d := d) as (k & K & E); [intros k K; apply F1; assumption| |exact D|].
        * intros k k' K K' N. apply F2; try assumption; [congruence|left; reflexivity].
        * exists (r, k, d). split; [apply IT; auto|right; left; reflexivity].
      + destruct (pigeon (fun k => f k c)) with (d := d) as (k & K & E); [intros k K; apply F1; assumption| |exact D|].
        * intros k k' K K' N. apply F2; try assumption; [congruence|right; left; reflexivity].
        * exists (k, c, d). split; [apply IT; auto|right; right; left; reflexivity].
      + set (rr := 3 * (r / 3)). set (cc := 3 * (c / 3)).
        assert (Br : 0 <= r / 3 < 3) by (pose proof (Z.div_mod r 3 ltac:(lia)); pose proof (Z.mod_pos_bound r 3 ltac:(lia)); lia).
        assert (Bc : 0 <= c / 3 < 3) by (pose proof (Z.div_mod c 3 ltac:(lia)); pose proof (Z.mod_pos_bound c 3 ltac:(lia)); lia).
        assert (Bk : forall k, 0 <= k < 9 -> 0 <= k / 3 < 3 /\ 0 <= k mod 3 < 3 /\ k = 3 * (k / 3) + k mod 3) by (intros k K; pose proof (Z.div_mod k 3 ltac:(lia)); pose proof (Z.mod_pos_bound k 3 ltac:(lia)); lia).
        assert (Blk : forall k, 0 <= k < 9 -> block (rr + k / 3) (cc + k mod 3) = block r c).
        { intros k K. destruct (Bk k K) as (B1 & B2 & _). unfold block, rr, cc. f_equal; [f_equal|]; symmetry; [apply (Z.div_unique _ 3 _ (k / 3))|apply (Z.div_unique _ 3 _ (k mod 3))]; lia. }
        destruct (pigeon (fun k => f (rr + k / 3) (cc + k mod 3))) with (d := d) as (k & K & E).
        * intros k K. destruct (Bk k K) as (B1 & B2 & _). apply F1; unfold rr, cc; lia.
        * intros k k' K K' N. destruct (Bk k K) as (B1 & B2 & B3), (Bk k' K') as (B1' & B2' & B3').
          apply F2; unfold rr, cc in *; try lia; [|right; right; rewrite (Blk k K), (Blk k' K'); reflexivity]. intros Q. injection Q as Q1 Q2. lia.
        * exact D.
        * destruct (Bk k K) as (B1 & B2 & _). exists (rr + k / 3, cc + k mod 3, d). split; [apply IT; unfold rr, cc in *; split; [lia|]; split; [lia|symmetry; exact E]|]. cbn [ents In]. rewrite (Blk k K). tauto.
    - intros x ((r, c), d) ((r', c'), d') _ I I' Ix Ix'. pose proof (triples_ok _ (TV _ I)) as O. pose proof (triples_ok _ (TV _ I')) as O'.
      destruct (ents_shared _ _ _ _ _ _ x O O' Ix Ix') as [(-> & ->)|(-> & H)].
      + apply IT in I, I'. destruct I as (_ & _ & ->), I' as (_ & _ & ->). reflexivity.
      + apply IT in I, I'. destruct I as (R & C & E), I' as (R' & C' & E'). destruct (Z.eq_dec r r') as [->|N1]; [destruct (Z.eq_dec c c') as [->|N2]; [reflexivity|]|].
        * exfalso. apply (F2 r' c r' c'); try assumption; [congruence|lia].
        * exfalso. apply (F2 r c r' c'); try assumption; [congruence|lia].
  Qed.
End Covers.
