(** * Spanning trees: counting components, the exchange argument *)
From Coq Require Import ZArith List Lia Bool Permutation Sorting.Sorted.
From Verif Require Import Base Py Dict Lists2 UF_Model UF_Spec UF_Proofs Graph_Model Graph_Spec Graph_Proofs Trav_Model Trav_Proofs
  Paths_Model Paths_Proofs2 MST_Model MST_Spec.
Import ListNotations.
Open Scope Z_scope.

Lemma linked_incl T T' u v : (forall x y, In (x, y) T -> linked T' x y) -> linked T u v -> linked T' u v.
Proof.
  intros H L. induction L as [u v I|u|u v _ IH|u v w _ IH1 _ IH2].
  - apply H, I.
  - apply linked_refl.
  - apply linked_sym, IH.
  - eapply linked_trans; eassumption.
Qed.
Lemma linked_sub T T' u v : incl T T' -> linked T u v -> linked T' u v.
Proof. intros H. apply linked_incl. intros x y I. apply linked_edge, H, I. Qed.

(** Classes of a list of edges. *)
Definition uops (T : list (Z * Z)) : list uop := map (fun e => UUnion (fst e) (snd e)) T.
Definition cls (T : list (Z * Z)) : Z -> Z := cls_after (uops T).
Lemma cls_linked T u v : cls T u = cls T v <-> linked T u v.
Proof.
  unfold cls. rewrite cls_conn. split; intros H.
  - induction H as [x y I|x|x y _ IH|x y z _ IH1 _ IH2].
    + unfold uops in I. apply in_map_iff in I as ([a b] & E & I). cbn in E. injection E as -> ->. apply linked_edge, I.
    + apply linked_refl.
    + apply linked_sym, IH.
    + eapply linked_trans; eassumption.
  - induction H as [x y I|x|x y _ IH|x y z _ IH1 _ IH2].
    + apply conn_union. unfold uops. apply in_map_iff. exists (x, y). auto.
    + apply conn_refl.
    + apply conn_sym, IH.
    + eapply conn_trans; eassumption.
Qed.
Lemma linked_dec T u v : {linked T u v} + {~ linked T u v}.
Proof. destruct (Z.eq_dec (cls T u) (cls T v)) as [E|E]; [left|right]; rewrite <- cls_linked; exact E. Qed.
Lemma cls_snoc T u v : cls (T ++ [(u, v)]) = join (cls T) u v.
Proof. unfold cls, cls_after, uops. rewrite map_app, fold_left_app. reflexivity. Qed.

(** ** The number of classes among the vertices V *)
Definition classes (c : Z -> Z) (V : list Z) : nat := length (nodup Z.eq_dec (map c V)).

Lemma join_in c x y L z : In z (map (join c x y) L) <-> exists a, In a L /\ z = (if c a =? c x then c y else c a).
Proof. rewrite in_map_iff. unfold join. split; intros (a & H1 & H2); exists a; auto. Qed.

Lemma classes_join_lower c x y V : (classes c V <= S (classes (join c x y) V))%nat.
Proof.
  unfold classes. change (S (length (nodup Z.eq_dec (map (join c x y) V)))) with (length (c x :: nodup Z.eq_dec (map (join c x y) V))).
  apply NoDup_incl_length; [apply NoDup_nodup|]. intros z Hz. apply nodup_In in Hz. apply in_map_iff in Hz as (a & <- & Ha).
  destruct (Z.eq_dec (c a) (c x)) as [E|E]; [left; congruence|]. right. apply nodup_In, join_in. exists a. split; [exact Ha|].
  destruct (Z.eqb_spec (c a) (c x)); congruence.
Qed.
Lemma classes_join_upper c x y V : In x V -> In y V -> c x <> c y -> (S (classes (join c x y) V) <= classes c V)%nat.
Proof.
  intros Hx Hy E. unfold classes.
  change (S (length (nodup Z.eq_dec (map (join c x y) V)))) with (length (c x :: nodup Z.eq_dec (map (join c x y) V))).
  apply NoDup_incl_length.
  - constructor; [|apply NoDup_nodup]. intros I. apply nodup_In, join_in in I as (a & _ & Ea). destruct (Z.eqb_spec (c a) (c x)); congruence.
  - intros z [<-|Hz]; [apply nodup_In, in_map, Hx|]. apply nodup_In in Hz. apply nodup_In. apply join_in in Hz as (a & Ha & ->).
    destruct (c a =? c x); apply in_map; assumption.
Qed.

Lemma classes_lower T V : NoDup V -> (length V <= classes (cls T) V + length T)%nat.
Proof.
  intros N. induction T as [|[u v] T IH] using rev_ind.
  - unfold classes. replace (map (cls []) V) with V by (symmetry; apply map_id). rewrite nodup_fixed_point by exact N. lia.
  - rewrite cls_snoc, app_length. cbn [length]. pose proof (classes_join_lower (cls T) u v V). lia.
Qed.

Lemma classes_one c V : (classes c V <= 1)%nat -> forall u v, In u V -> In v V -> c u = c v.
Proof.
  unfold classes. intros H u v Hu Hv.
  assert (Iu : In (c u) (nodup Z.eq_dec (map c V))) by (apply nodup_In, in_map, Hu).
  assert (Iv : In (c v) (nodup Z.eq_dec (map c V))) by (apply nodup_In, in_map, Hv).
  destruct (nodup Z.eq_dec (map c V)) as [|a [|b l]]; [destruct Iu| |cbn in H; lia].
  destruct Iu as [<-|[]], Iv as [<-|[]]. reflexivity.
Qed.
Lemma classes_all c V : (forall u v, In u V -> In v V -> c u = c v) -> (classes c V <= 1)%nat.
Proof.
  intros H. unfold classes. pose proof (NoDup_nodup Z.eq_dec (map c V)) as N.
  assert (S0 : forall a, In a (nodup Z.eq_dec (map c V)) -> exists u, In u V /\ a = c u).
  { intros a Ia. apply nodup_In, in_map_iff in Ia as (u & <- & Hu). eauto. }
  destruct (nodup Z.eq_dec (map c V)) as [|a [|b l]]; cbn; try lia. exfalso. inversion_clear N as [|? ? Na _]. apply Na. left.
  destruct (S0 a (or_introl eq_refl)) as (u & Hu & ->). destruct (S0 b (or_intror (or_introl eq_refl))) as (v & Hv & ->). auto.
Qed.

(** At least |V| - 1 edges are needed to join the vertices of V. *)
Lemma linked_lower T V : NoDup V -> (forall u v, In u V -> In v V -> linked T u v) -> (length V <= S (length T))%nat.
Proof.
  intros N H. pose proof (classes_lower T V N) as L. pose proof (classes_all (cls T) V) as C.
  enough (classes (cls T) V <= 1)%nat by lia. apply C. intros u v Hu Hv. apply cls_linked. auto.
Qed.

(** ** Adding an edge *)
Lemma linked_cons B p q x y : linked ((p, q) :: B) x y ->
  linked B x y \/ (linked B x p /\ linked B q y) \/ (linked B x q /\ linked B p y).
Proof.
  intros L. induction L as [u v I|u|u v _ IH|u v w _ IH1 _ IH2].
  - destruct I as [I|I]; [injection I as -> ->; right; left; split; apply linked_refl|left; apply linked_edge, I].
  - left. apply linked_refl.
  - destruct IH as [IH|[[I1 I2]|[I1 I2]]]; [left; apply linked_sym, IH|right; right|right; left]; split; apply linked_sym; assumption.
  - assert (T3 : forall a b c, linked B a b -> linked B b c -> linked B a c) by (intros; eapply linked_trans; eassumption).
    assert (S3 : forall a b, linked B a b -> linked B b a) by (intros; apply linked_sym; assumption).
    destruct IH1 as [I|[[I1 I2]|[I1 I2]]], IH2 as [J|[[J1 J2]|[J1 J2]]]; eauto 8.
Qed.

Lemma first_link B x y C : ~ linked B x y -> linked (C ++ B) x y ->
  exists C1 f C2, C = C1 ++ f :: C2 /\ ~ linked (C2 ++ B) x y /\ linked (f :: C2 ++ B) x y.
Proof.
  intros N. induction C as [|f C IH]; intros L; [contradiction|].
  destruct (linked_dec (C ++ B) x y) as [L'|L'].
  - destruct (IH L') as (C1 & f' & C2 & -> & H). exists (f :: C1), f', C2. split; [reflexivity|exact H].
  - exists [], f, C. split; [reflexivity|]. split; [exact L'|exact L].
Qed.

(** ** The weight of a tree *)
Lemma tw_app g A B W : total_weight g (A ++ B) W <-> exists W1 W2, total_weight g A W1 /\ total_weight g B W2 /\ W = W1 + W2.
Proof.
  revert W. induction A as [|[u v] A IH]; intros W; cbn [app].
  - split; [intros H; exists 0, W; split; [constructor|auto]|]. intros (W1 & W2 & H1 & H2 & ->). inversion H1; subst. exact H2.
  - split.
    + intros H. inversion H as [|? ? w ? W' Hw Ht]; subst. apply IH in Ht as (W1 & W2 & H1 & H2 & ->).
      exists (w + W1), W2. split; [constructor; assumption|]. split; [exact H2|lia].
    + intros (W1 & W2 & H1 & H2 & ->). inversion H1 as [|? ? w ? W' Hw Ht]; subst. rewrite <- Z.add_assoc. constructor; [exact Hw|].
      apply IH. eauto.
Qed.
Lemma tw_fun g T W W' : total_weight g T W -> total_weight g T W' -> W = W'.
Proof. intros H. revert W'. induction H as [|u v w T W Hw _ IH]; intros W' H'; inversion H'; subst; [reflexivity|]. f_equal; [congruence|auto]. Qed.
Lemma tw_total g T : (forall u v, In (u, v) T -> edge g u v) -> exists W, total_weight g T W.
Proof.
  induction T as [|[u v] T IH]; intros H; [exists 0; constructor|].
  destruct (H u v (or_introl eq_refl)) as (w & Hw). destruct IH as (W & HW); [intros; apply H; right; assumption|].
  exists (w + W). constructor; assumption.
Qed.
Lemma tw_perm g T T' W : Permutation T T' -> total_weight g T W -> total_weight g T' W.
Proof.
  intros P. revert W. induction P as [|[u v] l l' P IH|[u v] [u' v'] l|l l' l'' _ IH1 _ IH2]; intros W H.
  - exact H.
  - inversion H; subst. constructor; auto.
  - inversion H as [|? ? w ? W' Hw Ht]; subst. inversion Ht as [|? ? w2 ? W2 Hw2 Ht2]; subst.
    replace (w + (w2 + W2)) with (w2 + (w + W2)) by lia. constructor; [exact Hw2|]. constructor; assumption.
  - auto.
Qed.

Lemma st_perm g V T T' : Permutation T T' -> spanning_tree g V T -> spanning_tree g V T'.
Proof.
  intros P (S1 & S2 & S3). split; [|split].
  - intros u v I. apply S1. apply (Permutation_in (u, v) (Permutation_sym P) I).
  - intros u v Hu Hv. apply (linked_sub T); [intros e; apply Permutation_in, P|]. apply S2; assumption.
  - rewrite <- (Permutation_length P). exact S3.
Qed.

Section Theory.
  Context (g : graph) (V : list Z).
  Hypothesis Hg : undirected g.
  Hypothesis HV : NoDup V.

  (** A is part of a tree that is at least as good as any given one. *)
  Definition promising (A : list (Z * Z)) : Prop :=
    forall T0 W0, spanning_tree g V T0 -> total_weight g T0 W0 ->
    exists R W, spanning_tree g V (A ++ R) /\ total_weight g (A ++ R) W /\ W <= W0.

  Lemma promising_nil : promising [].
  Proof. intros T0 W0 H1 H2. exists T0, W0. split; [exact H1|]. split; [exact H2|lia]. Qed.

  Lemma sw u v : weight g u v = weight g v u.
  Proof. destruct Hg as (_ & _ & _ & H). apply H. Qed.

  Lemma blue (A : list (Z * Z)) (S : Z -> bool) x y c : promising A ->
    (forall p q, In (p, q) A -> S p = S q) -> In x V -> In y V -> weight g x y = Some c -> S x = true -> S y = false ->
    (forall p q c', In p V -> In q V -> weight g p q = Some c' -> S p = true -> S q = false -> c <= c') ->
    promising (A ++ [(x, y)]).
  Proof.
    intros P HA Hx Hy Hw Sx Sy M T0 W0 HT0 HW0. destruct (P T0 W0 HT0 HW0) as (R & W & (T1 & T2 & T3) & HW & HWle).
    set (cross := fun e : Z * Z => xorb (S (fst e)) (S (snd e))).
    set (B := filter (fun e => negb (cross e)) (A ++ R)). set (C := filter cross (A ++ R)).
    assert (NB : ~ linked B x y).
    { intros L. assert (K : S x = S y); [|congruence]. clear -L. induction L as [u v I|u|u v _ IH|u v w _ IH1 _ IH2]; try congruence.
      unfold B in I. apply filter_In in I as [_ I]. unfold cross in I. cbn in I. destruct (S u), (S v); cbn in I; congruence. }
    assert (LC : linked (C ++ B) x y).
    { apply (linked_sub (A ++ R)); [|apply T2; assumption]. intros e I. apply in_or_app. unfold B, C. rewrite !filter_In.
      destruct (cross e); auto. }
    destruct (first_link B x y C NB LC) as (C1 & f & C2 & EC & N2 & L2).
    assert (If : In f (A ++ R) /\ cross f = true) by (apply filter_In; fold C; rewrite EC; apply in_elt).
    destruct If as [If Xf].
    assert (IR : In f R).
    { apply in_app_or in If as [If|If]; [|exact If]. exfalso. destruct f as [p q]. unfold cross in Xf. cbn in Xf.
      rewrite (HA p q If), xorb_nilpotent in Xf. discriminate. }
    destruct (in_split f R IR) as (R1 & R2 & ->).
    assert (Sub : incl (C2 ++ B) (A ++ R1 ++ R2)).
    { intros e Ie. assert (Ne : e <> f).
      { intros ->. apply N2. apply (linked_sub (f :: C2 ++ B)); [|exact L2]. intros e [<-|I]; assumption. }
      assert (I2 : In e (A ++ R1 ++ f :: R2)).
      { apply in_app_or in Ie as [Ie|Ie]; [|unfold B in Ie; apply filter_In in Ie; tauto].
        assert (Ie' : In e C) by (rewrite EC; apply in_or_app; right; right; exact Ie). unfold C in Ie'. apply filter_In in Ie'. tauto. }
      rewrite !in_app_iff in *. destruct I2 as [I2|[I2|[I2|I2]]]; auto. congruence. }
    destruct f as [p q].
    assert (Ln : forall a b, linked (A ++ R1 ++ (p, q) :: R2) a b -> linked ((A ++ [(x, y)]) ++ R1 ++ R2) a b).
    { assert (Mo : forall a b, linked (C2 ++ B) a b -> linked ((A ++ [(x, y)]) ++ R1 ++ R2) a b).
      { intros a b. apply linked_sub. intros e Ie. specialize (Sub e Ie). rewrite !in_app_iff in *. tauto. }
      assert (Lxy : linked ((A ++ [(x, y)]) ++ R1 ++ R2) x y).
      { apply linked_edge. rewrite !in_app_iff. left. right. left. reflexivity. }
      intros a b. apply linked_incl. intros a' b' I. rewrite !in_app_iff in I. cbn [In] in I.
      assert (D : In (a', b') (A ++ R1 ++ R2) \/ (a', b') = (p, q)) by (rewrite !in_app_iff; destruct I as [I|[I|[I|I]]]; auto).
      destruct D as [D|D].
      - apply linked_edge. rewrite !in_app_iff in *. tauto.
      - injection D as -> ->. apply linked_cons in L2. destruct L2 as [L2|[[L2 L3]|[L2 L3]]]; [contradiction| |].
        + apply (linked_trans _ p x q); [apply linked_sym, Mo, L2|]. apply (linked_trans _ x y q); [exact Lxy|apply linked_sym, Mo, L3].
        + apply (linked_trans _ p y q); [apply Mo, L3|]. apply (linked_trans _ y x q); [apply linked_sym, Lxy|apply Mo, L2]. }
    assert (Hpq : In p V /\ In q V /\ edge g p q) by (apply T1; exact If). destruct Hpq as (Hp & Hq & cpq & Hcpq).
    assert (Cle : c <= cpq).
    { unfold cross in Xf. cbn in Xf. destruct (S p) eqn:Ep, (S q) eqn:Eq; try discriminate.
      - apply (M p q); assumption.
      - apply (M q p); try assumption. rewrite sw. exact Hcpq. }
    assert (P1 : Permutation (A ++ R1 ++ (p, q) :: R2) ((p, q) :: A ++ R1 ++ R2)).
    { rewrite !app_assoc. symmetry. apply Permutation_middle. }
    assert (P2 : Permutation ((A ++ [(x, y)]) ++ R1 ++ R2) ((x, y) :: A ++ R1 ++ R2)).
    { rewrite <- app_assoc. symmetry. apply (Permutation_middle A (R1 ++ R2) (x, y)). }
    apply (tw_perm _ _ _ _ P1) in HW. inversion HW as [|? ? w0 ? W1 Hw0 Ht]; subst. rewrite Hcpq in Hw0. injection Hw0 as <-.
    exists (R1 ++ R2), (c + W1). split; [split; [|split]|split].
    - intros u v I. apply (Permutation_in _ P2) in I. destruct I as [I|I].
      + injection I as <- <-. split; [exact Hx|]. split; [exact Hy|]. exists c. exact Hw.
      + apply T1. apply (Permutation_in _ (Permutation_sym P1)). right. exact I.
    - intros u v Hu Hv. apply Ln, T2; assumption.
    - rewrite (Permutation_length P2). rewrite <- T3, (Permutation_length P1). reflexivity.
    - apply (tw_perm _ _ _ _ (Permutation_sym P2)). constructor; assumption.
    - lia.
  Qed.

  (** A promising list with enough edges that joins all vertices is a minimum spanning tree. *)
  Lemma promising_minimum A W : promising A -> spanning_tree g V A -> total_weight g A W -> minimum_spanning_tree g V A W.
  Proof.
    intros P HA HW. split; [exact HA|]. split; [exact HW|]. intros T' W' HT HW'.
    destruct (P T' W' HT HW') as (R & W2 & HR & HW2 & Hle). destruct HA as (_ & _ & LA), HR as (_ & _ & LR).
    rewrite app_length in LR. assert (R = []) by (destruct R; [reflexivity|cbn in LR; lia]). subst R. rewrite app_nil_r in HW2.
    rewrite (tw_fun g A W W2 HW HW2). exact Hle.
  Qed.

  (** ** The form of the result *)
  Definition norm (T : list (Z * Z)) : list (Z * Z) := map (fun e => ordered (fst e) (snd e)) T.

  Lemma norm_linked T u v : linked (norm T) u v <-> linked T u v.
  Proof.
    split; apply linked_incl; intros x y I.
    - apply in_map_iff in I as ([a b] & E & I). cbn in E. unfold ordered in E. injection E as <- <-.
      destruct (Z.le_gt_cases a b).
      + rewrite Z.min_l, Z.max_r by lia. apply linked_edge, I.
      + rewrite Z.min_r, Z.max_l by lia. apply linked_sym, linked_edge, I.
    - assert (I' : In (ordered x y) (norm T)) by (apply in_map_iff; exists (x, y); auto). unfold ordered in I'.
      destruct (Z.le_gt_cases x y).
      + rewrite Z.min_l, Z.max_r in I' by lia. apply linked_edge, I'.
      + rewrite Z.min_r, Z.max_l in I' by lia. apply linked_sym, linked_edge, I'.
  Qed.

  Lemma norm_tw T W : total_weight g T W -> total_weight g (norm T) W.
  Proof.
    induction 1 as [|u v w T W Hw _ IH]; cbn; [constructor|]. constructor; [|exact IH].
    destruct (Z.le_gt_cases u v); [rewrite Z.min_l, Z.max_r by lia; exact Hw|rewrite Z.min_r, Z.max_l, sw by lia; exact Hw].
  Qed.

  Lemma norm_st T : spanning_tree g V T -> spanning_tree g V (norm T).
  Proof.
    intros (S1 & S2 & S3). split; [|split].
    - intros u v I. apply in_map_iff in I as ([a b] & E & I). cbn in E. unfold ordered in E. injection E as <- <-.
      destruct (S1 a b I) as (Ha & Hb & w & Hw).
      destruct (Z.le_gt_cases a b); [rewrite Z.min_l, Z.max_r by lia|rewrite Z.min_r, Z.max_l by lia];
        (split; [assumption|]; split; [assumption|]; exists w; try exact Hw). rewrite sw. exact Hw.
    - intros u v Hu Hv. apply norm_linked. auto.
    - unfold norm. rewrite map_length. exact S3.
  Qed.

  (** No edge of a spanning tree is superfluous. *)
  Lemma st_needs T1 e T2 : spanning_tree g V (T1 ++ e :: T2) -> ~ linked (T1 ++ T2) (fst e) (snd e).
  Proof.
    intros (S1 & S2 & S3) L. rewrite app_length in S3. cbn in S3.
    enough (length V <= Datatypes.S (length (T1 ++ T2)))%nat by (rewrite app_length in *; lia).
    apply linked_lower; [exact HV|]. intros u v Hu Hv. apply (linked_incl (T1 ++ e :: T2)); [|apply S2; assumption].
    intros x y I. apply in_app_or in I as [I|[I|I]].
    - apply linked_edge, in_or_app. auto.
    - subst e. exact L.
    - apply linked_edge, in_or_app. auto.
  Qed.
  Lemma st_nodup T : spanning_tree g V T -> NoDup T.
  Proof.
    intros H. apply NoDup_nth_error. intros i j Hi E.
    assert (Hj : (j < length T)%nat) by (apply nth_error_Some; rewrite <- E; apply nth_error_Some; exact Hi).
    destruct (Nat.eq_dec i j) as [->|Nij]; [reflexivity|]. exfalso.
    destruct (nth_error T i) as [e|] eqn:Ei; [|apply nth_error_None in Ei; lia]. symmetry in E.
    destruct (nth_error_split T i Ei) as (T1 & T2 & -> & L1).
    apply (st_needs T1 e T2 H). destruct e as [u v]. cbn. apply linked_edge.
    destruct (Nat.lt_trichotomy i j) as [Lt|[Eq|Lt]]; [|congruence|].
    - rewrite nth_error_app2 in E by lia. destruct (j - length T1)%nat as [|k] eqn:Ek; [lia|]. cbn in E.
      apply in_or_app. right. apply (nth_error_In _ _ E).
    - rewrite nth_error_app1 in E by lia. apply in_or_app. left. apply (nth_error_In _ _ E).
  Qed.
  Lemma st_noloop T u : spanning_tree g V T -> ~ In (u, u) T.
  Proof. intros H I. apply in_split in I as (T1 & T2 & ->). apply (st_needs _ _ _ H). cbn. apply linked_refl. Qed.
End Theory.

Lemma insert_pair_perm x l : Permutation (insert_pair x l) (x :: l).
Proof. induction l as [|y l IH]; cbn; [reflexivity|]. destruct (pair_ltb x y); [reflexivity|]. rewrite IH. apply perm_swap. Qed.
Lemma sort_pairs_perm l : Permutation (sort_pairs l) l.
Proof. induction l as [|x l IH]; cbn; [constructor|]. rewrite insert_pair_perm. constructor. exact IH. Qed.

Definition plt (x y : Z * Z) : Prop := fst x < fst y \/ (fst x = fst y /\ snd x < snd y).
Lemma pair_ltb_plt x y : pair_ltb x y = true <-> plt x y.
Proof. unfold pair_ltb, plt. rewrite orb_true_iff, andb_true_iff, Z.ltb_lt, Z.eqb_eq, Z.ltb_lt. reflexivity. Qed.
Lemma sort_pairs_sorted l : NoDup l -> StronglySorted plt (sort_pairs l).
Proof.
  induction l as [|x l IH]; intros N; cbn; [constructor|]. inversion_clear N as [|? ? Nx N']. specialize (IH N').
  assert (Nx' : ~ In x (sort_pairs l)) by (intros I; apply Nx; apply (Permutation_in _ (sort_pairs_perm l)), I).
  fold (sort_pairs l). revert Nx' IH. generalize (sort_pairs l) as s. clear. intros s Nx S. induction S as [|y s S IH F]; cbn.
  - constructor; constructor.
  - destruct (pair_ltb x y) eqn:E.
    + apply pair_ltb_plt in E. constructor; [constructor; assumption|]. constructor; [exact E|].
      rewrite Forall_forall in *. intros z Hz. specialize (F z Hz). unfold plt in *. lia.
    + constructor; [apply IH; intros I; apply Nx; right; exact I|]. rewrite Forall_forall in *. intros z Hz.
      apply (Permutation_in _ (insert_pair_perm x s)) in Hz. destruct Hz as [<-|Hz]; [|auto].
      assert (Exy : x <> y) by (intros ->; apply Nx; left; reflexivity).
      assert (E' : ~ plt x y) by (rewrite <- pair_ltb_plt; congruence). unfold plt in *. destruct x as [a b], y as [a' b']. cbn in *.
      destruct (Z.lt_trichotomy a a') as [|[->|]], (Z.lt_trichotomy b b') as [|[->|]]; try lia. congruence.
Qed.

(** The returned list. *)
Lemma mst_result g V A W : undirected g -> NoDup V -> minimum_spanning_tree g V A W ->
  minimum_spanning_tree g V (sort_pairs (norm A)) W /\ listed_in_order (sort_pairs (norm A)).
Proof.
  intros Hg HV (H1 & H2 & H3). pose proof (norm_st g V Hg A H1) as S1. pose proof (sort_pairs_perm (norm A)) as P.
  pose proof (st_nodup g V HV _ S1) as N.
  assert (S2 : spanning_tree g V (sort_pairs (norm A))) by (apply (st_perm g V (norm A)); [symmetry; exact P|exact S1]).
  split; [split; [exact S2|split]|].
  - apply (tw_perm g (norm A)); [symmetry; exact P|]. apply norm_tw; assumption.
  - exact H3.
  - split; [|apply sort_pairs_sorted, N]. intros u v I. pose proof (st_noloop g V HV _ u S2) as Nl.
    assert (u <= v).
    { apply (Permutation_in _ P) in I. apply in_map_iff in I as ([a b] & E & _). cbn in E. injection E as <- <-. lia. }
    enough (u <> v) by lia. intros ->. contradiction.
Qed.
