(** * Proofs: classes of spanning trees and the second-best tree of a class *)
From Coq Require Import ZArith List Bool Lia Permutation Sorting.Sorted.
From Verif Require Import Base Py Lists Dict Graph_Model Graph_Spec Graph_Proofs UF_Model UF_Spec Trav_Model Paths_Model MST_Model MST_Spec MST_Proofs
  Gab_Spec Gab_Model Gab_Proofs Gab_Proofs2.
Import ListNotations.
Open Scope Z_scope.

(** ** Lists in order *)
Lemma ordered_sym a b : ordered a b = ordered b a.
Proof. unfold ordered. rewrite Z.min_comm, Z.max_comm. reflexivity. Qed.
Lemma ordered_le a b : a <= b -> ordered a b = (a, b).
Proof. intros H. unfold ordered. rewrite Z.min_l, Z.max_r by lia. reflexivity. Qed.
Lemma ordered_cases a b x y : ordered a b = (x, y) -> x <= y /\ ((a = x /\ b = y) \/ (a = y /\ b = x)).
Proof. unfold ordered. intros E. injection E as <- <-. lia. Qed.
Lemma ordered_eq a b c d : ordered a b = ordered c d -> (a = c /\ b = d) \/ (a = d /\ b = c).
Proof. unfold ordered. intros E. injection E as E1 E2. lia. Qed.

Lemma plt_irr x : ~ plt x x. Proof. unfold plt. lia. Qed.
Lemma sorted_eq : forall l l', StronglySorted plt l -> StronglySorted plt l' -> (forall x, In x l <-> In x l') -> l = l'.
Proof.
  induction l as [|x l IH]; intros [|y l'] S1 S2 H; [reflexivity|destruct (proj2 (H y)); left; reflexivity|destruct (proj1 (H x)); left; reflexivity|].
  inversion S1 as [|? ? S1' F1]; subst. inversion S2 as [|? ? S2' F2]; subst. rewrite Forall_forall in F1, F2.
  assert (x = y). { destruct (proj1 (H x) (or_introl eq_refl)) as [E|I]; [congruence|]. destruct (proj2 (H y) (or_introl eq_refl)) as [E|J]; [congruence|]. specialize (F1 y J). specialize (F2 x I). unfold plt in *. lia. }
  subst y. f_equal. apply IH; [assumption|assumption|]. intros z. split; intros I.
  - destruct (proj1 (H z) (or_intror I)) as [E|J]; [|exact J]. subst z. exfalso. apply (plt_irr x), F1, I.
  - destruct (proj2 (H z) (or_intror I)) as [E|J]; [|exact J]. subst z. exfalso. apply (plt_irr x), F2, I.
Qed.

Definition canon (A : list (Z * Z)) : list (Z * Z) := sort_pairs (norm A).
Lemma canon_In A x y : In (x, y) (canon A) <-> exists a b, In (a, b) A /\ ordered a b = (x, y).
Proof.
  unfold canon, norm. split.
  - intros I. apply (Permutation_in _ (sort_pairs_perm _)) in I. apply in_map_iff in I as ((a & b) & E & I). exists a, b. auto.
  - intros (a & b & I & E). apply (Permutation_in _ (Permutation_sym (sort_pairs_perm _))). apply in_map_iff. exists (a, b). auto.
Qed.
Lemma canon_ordered A a b : In (ordered a b) (canon A) <-> In (a, b) A \/ In (b, a) A.
Proof.
  destruct (ordered a b) as (x, y) eqn:E. rewrite canon_In. split.
  - intros (c & d & I & E'). rewrite <- E in E'. apply ordered_eq in E' as [(-> & ->)|(-> & ->)]; auto.
  - intros [I|I]; [exists a, b|exists b, a]; (split; [exact I|]); [exact E|rewrite ordered_sym; exact E].
Qed.

Section Trees.
  Context (g : graph).
  Hypothesis Hg : undirected g.
  Notation V := (map fst g).

  Lemma tree_of_canon A W : spanning_tree g V A -> total_weight g A W -> tree_of g W (canon A).
  Proof using Hg.
    intros H1 H2. pose proof (norm_st g V Hg A H1) as S1. pose proof (sort_pairs_perm (norm A)) as P. pose proof (st_nodup g V (proj1 Hg) _ S1) as N.
    assert (S2 : spanning_tree g V (canon A)) by (apply (st_perm g V (norm A)); [symmetry; exact P|exact S1]).
    split; [exact S2|]. split; [|apply (tw_perm g (norm A)); [symmetry; exact P|]; apply norm_tw; assumption].
    split; [|apply sort_pairs_sorted, N]. intros u v I. pose proof (st_noloop g V (proj1 Hg) _ u S2) as Nl.
    assert (u <= v). { apply canon_In in I as (a & b & _ & E). apply ordered_cases in E. lia. }
    enough (u <> v) by lia. intros ->. contradiction.
  Qed.

  Lemma tree_eq W W' T T' : tree_of g W T -> tree_of g W' T' -> incl T T' -> T = T'.
  Proof using Hg.
    intros (S1 & (_ & O1) & _) (S2 & (_ & O2) & _) I. apply sorted_eq; [exact O1|exact O2|]. intros x. split; [apply I|]. apply NoDup_length_incl; [apply (st_nodup g V (proj1 Hg)), S1| |exact I]. destruct S1 as (_ & _ & L1), S2 as (_ & _ & L2). lia.
  Qed.
  Lemma tree_weight W W' T : tree_of g W T -> tree_of g W' T -> W = W'.
  Proof using. intros (_ & _ & H1) (_ & _ & H2). apply (tw_fun g T W W' H1 H2). Qed.

  (** An edge of a spanning tree may be replaced by another one that joins the two parts. *)
  Lemma swap_st T1 f T2 p q : spanning_tree g V (T1 ++ f :: T2) -> In p V -> In q V -> edge g p q -> ~ linked (T1 ++ T2) p q -> spanning_tree g V (T1 ++ (p, q) :: T2).
  Proof using Hg.
    intros (S1 & S2 & S3) Ip Iq E N. split; [|split].
    - intros u v I. apply in_app_or in I as [I|[I|I]]; [apply S1, in_or_app; auto|injection I as <- <-; auto|apply S1, in_or_app; right; right; exact I].
    - destruct f as (x & y). assert (C2 : (classes (cls (T1 ++ T2)) V <= 2)%nat).
      { pose proof (classes_join_lower (cls (T1 ++ T2)) x y V) as C. rewrite <- cls_snoc in C. assert (C1 : (classes (cls ((T1 ++ T2) ++ [(x, y)])) V <= 1)%nat); [|lia]. apply classes_all. intros u v Iu Iv. apply cls_linked. apply (linked_sub (T1 ++ (x, y) :: T2)); [|apply S2; assumption]. intros e I. rewrite !in_app_iff in *. cbn [In] in *. tauto. }
      pose proof (classes_join_upper (cls (T1 ++ T2)) p q V Ip Iq ltac:(intros Q; apply N, cls_linked, Q)) as C. rewrite <- cls_snoc in C.
      intros u v Iu Iv. apply (linked_sub ((T1 ++ T2) ++ [(p, q)])); [intros e I; rewrite !in_app_iff in *; cbn [In] in *; tauto|]. apply cls_linked. apply (classes_one (cls ((T1 ++ T2) ++ [(p, q)])) V); [lia|exact Iu|exact Iv].
    - rewrite app_length in *. cbn [length] in *. exact S3.
  Qed.
  Lemma swap_tw T1 x y T2 p q W : total_weight g (T1 ++ (x, y) :: T2) W -> edge g p q -> total_weight g (T1 ++ (p, q) :: T2) (W - arc_key g (x, y) + arc_key g (p, q)).
  Proof using.
    intros H (w & Ew). apply (tw_perm g _ _ W (Permutation_sym (Permutation_middle T1 T2 (x, y)))) in H. inversion H as [|? ? w0 ? W1 Hw0 Ht]; subst. apply (tw_perm g _ _ _ (Permutation_middle T1 T2 (p, q))). rewrite (arc_key_weight g x y w0 Hw0), (arc_key_weight g p q w Ew). replace (w0 + W1 - w0 + w) with (w + W1) by lia. constructor; assumption.
  Qed.

  (** The spanning trees that contain the edges IN and none of the edges OUT. *)
  Definition class (IN OUT : list (Z * Z)) (T : list (Z * Z)) : Prop :=
    (exists W, tree_of g W T) /\ (forall a b, In (a, b) IN -> In (ordered a b) T) /\ (forall a b, In (a, b) OUT -> ~ In (ordered a b) T).

  Context (root : Z) (F : Z -> Z) (D : Z -> nat).
  Hypothesis R : rooted V root F D.
  Hypothesis Te : forall v, In v V -> v <> root -> edge g v (F v).
  Notation tedges := (tedges V root F).
  Notation sub := (sub F D).
  Definition Tx : list (Z * Z) := canon tedges.
  Definition INb (IN : list (Z * Z)) (z : Z) : bool := negb (z =? root) && (pair_mem (z, F z) IN || pair_mem (F z, z) IN).

  Lemma tedges_st : spanning_tree g V tedges.
  Proof using R Te.
    split; [|split].
    - intros u v I. apply tedges_In in I as (Iu & Nu & ->). split; [exact Iu|]. split; [apply (HF V root F D R u Iu)|apply Te; assumption].
    - intros u v Iu Iv. apply (linked_trans _ u root v); [apply (tree_linked V root F D R u Iu)|apply linked_sym, (tree_linked V root F D R v Iv)].
    - apply (tedges_length V root F D R).
  Qed.
  Lemma Tx_tree : exists W, tree_of g W Tx.
  Proof using R Te Hg. destruct (tw_total g tedges) as (W & HW); [intros u v I; apply tedges_st, I|]. exists W. apply tree_of_canon; [apply tedges_st|exact HW]. Qed.
  Lemma Tx_weight W : tree_of g W Tx -> total_weight g tedges W.
  Proof using R Te Hg. intros H. destruct (tw_total g tedges) as (W' & HW); [intros u v I; apply tedges_st, I|]. rewrite (tree_weight W W' Tx H (tree_of_canon _ _ tedges_st HW)). exact HW. Qed.
  Lemma Tx_father z : In z V -> z <> root -> In (ordered z (F z)) Tx.
  Proof using. intros I N. apply canon_ordered. left. apply tedges_In. auto. Qed.
  Lemma Tx_In a b : In (ordered a b) Tx <-> (In a V /\ a <> root /\ b = F a) \/ (In b V /\ b <> root /\ a = F b).
  Proof using. unfold Tx. rewrite canon_ordered, !tedges_In. reflexivity. Qed.

  (** The edges of the tree on the path between two vertices link them. *)
  Lemma path_linked : forall n x y, (D x + D y = n)%nat -> In x V -> In y V ->
    linked (filter (fun e => negb (Bool.eqb (sub (fst e) x) (sub (fst e) y))) tedges) x y.
  Proof using R.
    induction n as [n IH] using lt_wf_ind.
    assert (Step : forall x y, (D x + D y = n)%nat -> In x V -> In y V -> x <> y -> (D y <= D x)%nat -> linked (filter (fun e => negb (Bool.eqb (sub (fst e) x) (sub (fst e) y))) tedges) x y).
    { intros x y En Ix Iy Nxy Le. assert (Nx : x <> root). { intros ->. rewrite (Dr V root F D R) in Le. destruct (Z.eq_dec y root) as [->|Ny]; [contradiction|]. pose proof (HD V root F D R y Iy Ny). lia. }
      assert (Sxx : sub x x = true) by (apply (sub_anc V root F D R x x Ix); constructor).
      assert (Sxy : sub x y = false). { apply (sub_false V root F D R x y Iy). intros A. destruct (anc_D V root F D R x y A Iy) as [E|E]; [contradiction|lia]. }
      pose proof (HD V root F D R x Ix Nx) as Dx. apply (linked_trans _ x (F x) y).
      - apply linked_edge. apply filter_In. split; [apply tedges_In; auto|]. cbn [fst]. rewrite Sxx, Sxy. reflexivity.
      - apply (linked_sub (filter (fun e => negb (Bool.eqb (sub (fst e) (F x)) (sub (fst e) y))) tedges)); [|apply (IH (D (F x) + D y)%nat); [lia|reflexivity|apply (HF V root F D R x Ix)|exact Iy]].
        intros (z & q) I. apply filter_In in I as (I & Q). apply filter_In. split; [exact I|]. cbn [fst] in *. destruct (Z.eq_dec x z) as [<-|Nz]; [rewrite Sxx, Sxy; reflexivity|]. rewrite (sub_father V root F D R z x Ix Nz). exact Q. }
    intros x y En Ix Iy. destruct (Z.eq_dec x y) as [->|Nxy]; [apply linked_refl|]. destruct (le_lt_dec (D y) (D x)) as [Le|Lt]; [apply Step; assumption|].
    apply linked_sym. apply (linked_sub (filter (fun e => negb (Bool.eqb (sub (fst e) y) (sub (fst e) x))) tedges)); [|apply Step; try assumption; [lia|congruence|lia]].
    intros e I. apply filter_In in I as (I & Q). apply filter_In. split; [exact I|]. destruct (sub (fst e) x), (sub (fst e) y); exact Q.
  Qed.

  Lemma path_cross B x y : In x V -> In y V -> ~ linked B x y -> exists z, In z V /\ z <> root /\ sub z x <> sub z y /\ ~ linked B z (F z).
  Proof using R.
    intros Ix Iy N. pose proof (path_linked _ x y eq_refl Ix Iy) as L. set (P := filter _ tedges) in L.
    assert (Ds : forall l, (forall e, In e l -> linked B (fst e) (snd e)) \/ exists e, In e l /\ ~ linked B (fst e) (snd e)).
    { clear. induction l as [|e l IH]; [left; intros e []|]. destruct (linked_dec B (fst e) (snd e)) as [Q|Q]; [|right; exists e; split; [left; reflexivity|exact Q]]. destruct IH as [IH|(e' & I & Q')]; [left; intros e' [<-|I]; auto|right; exists e'; split; [right; exact I|exact Q']]. }
    destruct (Ds P) as [A|((z & p) & I & Q)]; [exfalso; apply N, (linked_incl P B x y); [intros a b I; apply (A (a, b) I)|exact L]|].
    apply filter_In in I as (I & S). apply tedges_In in I as (Iz & Nz & ->). exists z. split; [exact Iz|]. split; [exact Nz|]. cbn [fst snd] in *. split; [|exact Q]. intros E. rewrite E, Bool.eqb_reflx in S. discriminate.
  Qed.

  Context (edges : list (Z * Z)).
  Hypothesis Ec : forall x y, x <= y -> edge g x y -> In (x, y) edges.

  Notation cand := (cand g F).
  Notation ok_pair := (ok_pair (map fst g) root F D edges).

  Lemma INb_In IN z : In z V -> INb IN z = true <-> z <> root /\ exists a b, In (a, b) IN /\ ordered a b = ordered z (F z).
  Proof using.
    intros Iz. unfold INb. rewrite andb_true_iff, orb_true_iff, !pair_mem_In, negb_true_iff, Z.eqb_neq. split; intros (N & H); (split; [exact N|]).
    - destruct H as [H|H]; [exists z, (F z); auto|exists (F z), z; split; [exact H|apply ordered_sym]].
    - destruct H as (a & b & I & E). apply ordered_eq in E as [(-> & ->)|(-> & ->)]; auto.
  Qed.

  Lemma second_best IN OUT Wx T W : class IN OUT Tx -> tree_of g Wx Tx -> (forall T' W', class IN OUT T' -> tree_of g W' T' -> Wx <= W') ->
    class IN OUT T -> tree_of g W T -> T <> Tx -> exists f z, ok_pair OUT (INb IN) f z /\ Wx + cand f z <= W.
  Proof using Hg R Te Ec.
    intros (_ & CI & CO) HWx Min (_ & TI & TO) HW Ne.
    assert (Df : exists f, In f T /\ ~ In f Tx).
    { assert (Dc : forall l, incl l Tx \/ exists f, In f l /\ ~ In f Tx).
      { clear. induction l as [|e l IH]; [left; intros e []|]. destruct (pair_mem e Tx) eqn:Q; [apply pair_mem_In in Q|right; exists e; split; [left; reflexivity|intros I; apply pair_mem_In in I; congruence]]. destruct IH as [IH|(f & I & N)]; [left; intros e' [<-|I]; auto|right; exists f; split; [right; exact I|exact N]]. }
      destruct (Dc T) as [I|H]; [|exact H]. destruct Ne. apply (tree_eq W Wx T Tx HW HWx I). }
    destruct Df as ((x & y) & If & Nf). pose proof HW as (ST & (Lt & _) & TW). pose proof (Lt x y If) as Lxy. pose proof ST as (S1 & _). destruct (S1 x y If) as (Ix & Iy & Exy).
    assert (Oxy : ordered x y = (x, y)) by (apply ordered_le; lia).
    apply in_split in If as (T1 & T2 & ->). pose proof (st_needs g V (proj1 Hg) T1 (x, y) T2 ST) as Nd. cbn [fst snd] in Nd.
    destruct (path_cross (T1 ++ T2) x y Ix Iy Nd) as (z & Iz & Nz & Sz & Lz). exists (x, y), z.
    assert (NT : ~ In (ordered z (F z)) (T1 ++ T2)). { intros I. apply Lz. apply norm_linked. unfold ordered in I. destruct (Z.le_gt_cases z (F z)). - rewrite Z.min_l, Z.max_r in I by lia. apply (norm_linked (T1 ++ T2)), linked_edge, I. - rewrite Z.min_r, Z.max_l in I by lia. apply (norm_linked (T1 ++ T2)), linked_sym, linked_edge, I. }
    assert (Sub : forall e, In e (T1 ++ T2) -> In e (T1 ++ (x, y) :: T2)) by (intros e I; apply in_app_or in I as [I|I]; apply in_or_app; [left|right; right]; exact I).
    split.
    - split; [|split; [exact Iz|]; split; [exact Nz|]; split; [|exact Sz]].
      + split; [apply Ec; [lia|exact Exy]|]. unfold swap. cbn [fst snd]. split; [intros I; apply TO in I; rewrite Oxy in I; apply I, in_elt|]. split; [intros I; apply TO in I; rewrite ordered_sym, Oxy in I; apply I, in_elt|].
        split; intros E; apply Nf; rewrite <- Oxy; apply Tx_In; [left|right]; (split; [assumption|]); (split; [|auto]); intros ->; rewrite (Fr V root F D R) in E; lia.
      + destruct (INb IN z) eqn:Q; [exfalso|reflexivity]. apply (INb_In IN z Iz) in Q as (_ & a & b & I & E). apply TI in I. rewrite E in I. apply in_app_or in I. assert (J : In (ordered z (F z)) (T1 ++ T2) \/ (x, y) = ordered z (F z)) by (rewrite in_app_iff; destruct I as [I|[I|I]]; auto). destruct J as [J|J]; [contradiction|]. apply Nf. rewrite J. apply Tx_father; assumption.
    - pose proof (swap_st T1 (x, y) T2 z (F z) ST Iz (HF V root F D R z Iz) (Te z Iz Nz) Lz) as S'. pose proof (swap_tw T1 x y T2 z (F z) W TW (Te z Iz Nz)) as W'. pose proof (tree_of_canon _ _ S' W') as T'.
      assert (Ord : forall e, In e (T1 ++ (x, y) :: T2) -> ordered (fst e) (snd e) = e) by (intros (a & b) I; cbn [fst snd]; apply ordered_le; specialize (Lt a b I); lia).
      assert (Wx <= W - arc_key g (x, y) + arc_key g (z, F z)); [|unfold Gab_Proofs2.cand; lia]. apply (Min (canon (T1 ++ (z, F z) :: T2))); [|exact T']. split; [eauto|]. split.
      + intros a b I. destruct (ordered a b) as (c & d) eqn:Ecd. assert (J : In (c, d) (T1 ++ T2)). { pose proof (TI a b I) as J. rewrite Ecd in J. assert (N : (c, d) <> (x, y)) by (intros Q; apply Nf; rewrite <- Q, <- Ecd; apply CI, I). rewrite !in_app_iff in *. destruct J as [J|[J|J]]; auto. congruence. }
        pose proof (Ord (c, d) (Sub _ J)) as Oc. cbn [fst snd] in Oc. rewrite <- Oc. apply canon_ordered. left. rewrite in_app_iff in *. cbn [In]. tauto.
      + intros a b I J. destruct (ordered a b) as (c & d) eqn:Ecd. apply canon_In in J as (p & q & J & E). apply in_app_or in J. assert (K : In (p, q) (T1 ++ T2) \/ (z, F z) = (p, q)) by (rewrite in_app_iff; destruct J as [J|[J|J]]; auto). destruct K as [K|K].
        * pose proof (Ord (p, q) (Sub _ K)) as Op. cbn [fst snd] in Op. rewrite Op in E. injection E as -> ->. apply (TO a b I). rewrite Ecd. apply Sub, K.
        * injection K as <- <-. apply (CO a b I). rewrite Ecd, <- E. apply Tx_father; assumption.
  Qed.

  (** The tree after an exchange. *)
  Lemma exchanged IN OUT Wx f z : class IN OUT Tx -> tree_of g Wx Tx -> ok_pair OUT (INb IN) f z -> In (fst f) V -> In (snd f) V -> edge g (fst f) (snd f) ->
    exists A B, tedges = A ++ (z, F z) :: B /\ spanning_tree g V (A ++ f :: B) /\ tree_of g (Wx + cand f z) (canon (A ++ f :: B)) /\
      class IN (OUT ++ [(z, F z)]) (canon (A ++ f :: B)) /\ class (IN ++ [(z, F z)]) OUT Tx.
  Proof using Hg R Te.
    intros (C0 & CI & CO) HWx ((Ie & O1 & O2 & N1 & N2) & Iz & Nz & INz & Sz) I1 I2 Ef. destruct f as (x & y). cbn [fst snd] in *.
    assert (Iz' : In (z, F z) tedges) by (apply tedges_In; auto). apply in_split in Iz' as (A & B & EAB). exists A, B. split; [exact EAB|].
    pose proof tedges_st as ST. pose proof (Tx_weight Wx HWx) as TW. rewrite EAB in ST, TW.
    assert (Nl : ~ linked (A ++ B) x y) by (intros L; apply Sz, (linked_cut V root F D R A z (F z) B EAB x y I1 I2), L).
    pose proof (swap_st A (z, F z) B x y ST I1 I2 Ef Nl) as S'. pose proof (swap_tw A z (F z) B x y Wx TW Ef) as W'. split; [exact S'|].
    assert (T' : tree_of g (Wx + cand (x, y) z) (canon (A ++ (x, y) :: B))). { unfold Gab_Proofs2.cand. replace (Wx + (arc_key g (x, y) - arc_key g (z, F z))) with (Wx - arc_key g (z, F z) + arc_key g (x, y)) by lia. apply tree_of_canon; assumption. }
    split; [exact T'|].
    assert (Key : forall a b, In (a, b) (A ++ B) -> ordered a b <> ordered z (F z)).
    { intros a b I E. assert (J : In (a, b) tedges) by (rewrite EAB; apply in_app_or in I as [I|I]; apply in_or_app; [left|right; right]; exact I). apply tedges_In in J as (Ia & Na & ->). apply ordered_eq in E as [(-> & _)|(E1 & E2)]; [apply (tedges_keys V root F D R A z (F z) B EAB _ I)|].
      pose proof (HD V root F D R a Ia Na). pose proof (HD V root F D R z Iz Nz). rewrite E2 in *. subst a. lia. }
    split; (split; [eauto|]); split.
    - intros a b I. pose proof (CI a b I) as J. unfold Tx in J. rewrite canon_ordered, EAB in J. apply canon_ordered. assert (N : ordered a b <> ordered z (F z)). { intros E. assert (INb IN z = true); [|congruence]. apply (INb_In IN z Iz). split; [exact Nz|]. eauto. }
      rewrite !in_app_iff in *. cbn [In] in *. destruct J as [[J|[J|J]]|[J|[J|J]]]; auto; exfalso; apply N; injection J as <- <-; [reflexivity|apply ordered_sym].
    - intros a b I J. apply in_app_or in I as [I|[I|[]]].
      + apply canon_ordered in J. assert (K : In (a, b) (A ++ B) \/ In (b, a) (A ++ B) \/ (x, y) = (a, b) \/ (x, y) = (b, a)) by (rewrite !in_app_iff in *; cbn [In] in *; tauto). destruct K as [K|[K|[K|K]]].
        * apply (CO a b I), canon_ordered. left. rewrite EAB, in_app_iff in *. cbn [In]. tauto.
        * apply (CO a b I), canon_ordered. right. rewrite EAB, in_app_iff in *. cbn [In]. tauto.
        * injection K as <- <-. contradiction.
        * injection K as <- <-. apply O2. exact I.
      + injection I as <- <-. apply canon_ordered in J. assert (K : In (z, F z) (A ++ B) \/ In (F z, z) (A ++ B) \/ (x, y) = (z, F z) \/ (x, y) = (F z, z)) by (rewrite !in_app_iff in *; cbn [In] in *; tauto). destruct K as [K|[K|[K|K]]].
        * apply (Key _ _ K). reflexivity.
        * apply (Key _ _ K). apply ordered_sym.
        * injection K as -> ->. apply N1. reflexivity.
        * injection K as -> ->. apply N2. reflexivity.
    - intros a b I. apply in_app_or in I as [I|[I|[]]]; [apply CI, I|]. injection I as <- <-. apply Tx_father; assumption.
    - exact CO.
  Qed.
End Trees.
