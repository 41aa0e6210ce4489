(** * Graphs whose vertices are texts, and the odd graphs *)
From Coq Require Import Ascii String ZArith List Bool Lia Sorting.Permutation.
From Verif Require Import Base Lists Lists2 Count Enum_Proofs Repr_Spec Repr_Proofs Odd_Spec Odd_Model.
Import ListNotations.
Open Scope Z_scope.

Lemma teqb_iff u : forall v, teqb u v = true <-> u = v.
Proof.
  induction u as [|c u IH]; intros [|d v]; cbn [teqb]; try (split; [discriminate|discriminate]); [tauto|].
  rewrite andb_true_iff, Ascii.eqb_eq, IH. split; [intros (-> & ->); reflexivity|intros E; injection E; auto].
Qed.
Lemma teqb_refl u : teqb u u = true. Proof. apply teqb_iff. reflexivity. Qed.
Lemma teqb_false u v : u <> v -> teqb u v = false.
Proof. intros H. destruct (teqb u v) eqn:E; [apply teqb_iff in E; tauto|reflexivity]. Qed.
Lemma text_dec (u v : text) : u = v \/ u <> v.
Proof. destruct (teqb u v) eqn:E; [left; apply teqb_iff, E|right; intros ->; rewrite teqb_refl in E; discriminate]. Qed.

(** ** Dictionaries *)
Section Dict.
Context {A : Type}.
Implicit Types d : list (text * A).

Lemma tget_none d k : tget d k = None <-> ~ In k (map fst d).
Proof.
  induction d as [|[k' a] d IH]; cbn [tget map fst]; [split; [intros _ []|reflexivity]|]. destruct (text_dec k' k) as [->|N].
  - rewrite teqb_refl. split; [discriminate|]. intros H. destruct H. left. reflexivity.
  - rewrite teqb_false by exact N. rewrite IH. cbn [In]. tauto.
Qed.
Lemma tget_in d k a : tget d k = Some a -> In (k, a) d.
Proof.
  induction d as [|[k' b] d IH]; cbn [tget]; [discriminate|]. destruct (teqb k' k) eqn:E; [apply teqb_iff in E; intros X; injection X as ->; subst; left; reflexivity|].
  intros H. right. apply IH, H.
Qed.
Lemma tget_iff d k a : NoDup (map fst d) -> (tget d k = Some a <-> In (k, a) d).
Proof.
  intros N. split; [apply tget_in|]. intros H. induction d as [|[k' b] d IH]; [destruct H|]. cbn [map fst] in N. inversion_clear N. cbn [tget]. destruct H as [E|H].
  - injection E as -> ->. rewrite teqb_refl. reflexivity.
  - rewrite teqb_false; [apply IH; assumption|]. intros ->. apply H0. apply (in_map fst _ _ H).
Qed.
Lemma tset_keys d k a : map fst (tset d k a) = if existsb (teqb k) (map fst d) then map fst d else map fst d ++ [k].
Proof.
  induction d as [|[k' b] d IH]; [reflexivity|]. cbn [tset map fst existsb]. destruct (text_dec k' k) as [->|N].
  - rewrite teqb_refl. reflexivity.
  - rewrite !teqb_false by congruence. cbn [map fst orb]. rewrite IH. destruct (existsb _ _); reflexivity.
Qed.
Lemma tset_key d k a x : In x (map fst (tset d k a)) <-> In x (map fst d) \/ x = k.
Proof.
  rewrite tset_keys. destruct (existsb (teqb k) (map fst d)) eqn:E.
  - apply existsb_exists in E as (y & Hy & E). apply teqb_iff in E. subst y. split; [auto|intros [H| ->]; assumption].
  - rewrite in_app_iff. cbn. intuition.
Qed.
Lemma tset_nodup d k a : NoDup (map fst d) -> NoDup (map fst (tset d k a)).
Proof.
  intros N. rewrite tset_keys. destruct (existsb (teqb k) (map fst d)) eqn:E; [exact N|].
  eapply Permutation_NoDup; [apply Permutation_cons_append|]. constructor; [|exact N]. intros H.
  assert (X : existsb (teqb k) (map fst d) = true) by (apply existsb_exists; exists k; split; [exact H|apply teqb_refl]). congruence.
Qed.
Lemma tget_tset d k a x : tget (tset d k a) x = if teqb k x then Some a else tget d x.
Proof.
  induction d as [|[k' b] d IH]; [reflexivity|]. cbn [tset]. destruct (text_dec k' k) as [->|N].
  - rewrite teqb_refl. cbn [tget]. destruct (teqb k x); reflexivity.
  - rewrite (teqb_false k' k N). cbn [tget]. rewrite IH. destruct (text_dec k' x) as [->|N']; [|rewrite (teqb_false k' x N'); reflexivity].
    rewrite teqb_refl, teqb_false by congruence. reflexivity.
Qed.
Lemma tset_in d k a x b : In (x, b) (tset d k a) -> In (x, b) d \/ (x = k /\ b = a).
Proof.
  induction d as [|[k' c] d IH]; cbn [tset]; [intros [E|[]]; injection E as <- <-; auto|].
  destruct (teqb k' k) eqn:E; [apply teqb_iff in E; subst|]; (intros [X|X]; [injection X as <- <-; cbn; auto|cbn; auto]).
  destruct (IH X) as [H|H]; auto.
Qed.
End Dict.

(** ** Graphs *)
Definition wt (g : tgraph) (u v : text) : option Z := match tget g u with Some a => tget a v | None => None end.

Lemma tweight_wt g u v w : distinct_keys g -> (tweight g u v w <-> wt g u v = Some w).
Proof.
  intros (N & H). unfold tweight, wt. split.
  - intros (a & Ha & Hw). rewrite (proj2 (tget_iff g u a N) Ha). apply tget_iff; [eapply H, Ha|exact Hw].
  - destruct (tget g u) as [a|] eqn:E; [|discriminate]. intros Hw. exists a. split; apply tget_in; assumption.
Qed.

Lemma tadd_arc_ok g a b w : distinct_keys g -> distinct_keys (tadd_arc g a b w) /\
  (forall x, tvertex (tadd_arc g a b w) x <-> tvertex g x \/ x = a) /\
  (forall x y, wt (tadd_arc g a b w) x y = if teqb a x && teqb b y then Some w else wt g x y).
Proof.
  intros (N & H). unfold tadd_arc, tvertex, wt. destruct (tget g a) as [d|] eqn:E.
  - split; [split; [apply tset_nodup, N|]|split].
    + intros u c Hc. apply tset_in in Hc as [Hc|(-> & ->)]; [eapply H, Hc|]. apply tset_nodup. eapply H, tget_in, E.
    + intros x. apply tset_key.
    + intros x y. rewrite tget_tset. destruct (text_dec a x) as [->|Nx]; [|rewrite teqb_false by exact Nx; reflexivity].
      rewrite teqb_refl, tget_tset, E. reflexivity.
  - split; [split; [apply tset_nodup, N|]|split].
    + intros u c Hc. apply tset_in in Hc as [Hc|(-> & ->)]; [eapply H, Hc|]. repeat constructor. intros [].
    + intros x. apply tset_key.
    + intros x y. rewrite tget_tset. destruct (text_dec a x) as [->|Nx]; [|rewrite teqb_false by exact Nx; reflexivity].
      rewrite teqb_refl, E. reflexivity.
Qed.

Lemma tadd_edge_ok g a b w : distinct_keys g -> distinct_keys (tadd_edge g a b w) /\
  (forall x, tvertex (tadd_edge g a b w) x <-> tvertex g x \/ x = a \/ x = b) /\
  (forall x y, ((x = a /\ y = b) \/ (x = b /\ y = a) -> wt (tadd_edge g a b w) x y = Some w) /\
               (~ ((x = a /\ y = b) \/ (x = b /\ y = a)) -> wt (tadd_edge g a b w) x y = wt g x y)).
Proof.
  intros D. unfold tadd_edge. destruct (tadd_arc_ok g a b w D) as (D1 & V1 & W1). destruct (tadd_arc_ok _ b a w D1) as (D2 & V2 & W2).
  split; [exact D2|]. split; [intros x; rewrite V2, V1; tauto|]. intros x y. rewrite W2, W1. split.
  - intros [(-> & ->)|(-> & ->)]; rewrite !teqb_refl; cbn [andb]; [destruct (teqb b a && teqb a b)|]; reflexivity.
  - intros X. destruct (text_dec b x) as [->|N1]; [destruct (text_dec a y) as [->|N2]; [tauto|]|].
    + rewrite (teqb_false a y N2), andb_false_r. destruct (text_dec a x) as [->|N3]; [destruct (text_dec x y) as [->|N4]; [tauto|]|].
      * rewrite (teqb_false x y N4), andb_false_r. reflexivity.
      * rewrite (teqb_false a x N3). reflexivity.
    + rewrite (teqb_false b x N1). cbn [andb]. destruct (text_dec a x) as [->|N3]; [destruct (text_dec b y) as [->|N4]; [tauto|]|].
      * rewrite (teqb_false b y N4), andb_false_r. reflexivity.
      * rewrite (teqb_false a x N3). reflexivity.
Qed.

Lemma tadd_vertex_ok g u : distinct_keys g -> (forall x y, wt g x y = None) -> distinct_keys (tadd_vertex g u) /\
  (forall x, tvertex (tadd_vertex g u) x <-> tvertex g x \/ x = u) /\ (forall x y, wt (tadd_vertex g u) x y = None).
Proof.
  intros (N & H) W. unfold tadd_vertex. destruct (tget g u) as [a|] eqn:E.
  - split; [split; assumption|]. split; [|exact W]. intros x. split; [auto|]. intros [X| ->]; [exact X|]. apply tget_in in E. apply (in_map fst _ _ E).
  - split; [split; [apply tset_nodup, N|]|split].
    + intros v c Hc. apply tset_in in Hc as [Hc|(-> & ->)]; [eapply H, Hc|]. constructor.
    + intros x. apply tset_key.
    + intros x y. unfold wt. rewrite tget_tset. destruct (teqb u x); [reflexivity|apply W].
Qed.

Lemma tadd_vertices_ok L : forall g, distinct_keys g -> (forall x y, wt g x y = None) -> distinct_keys (fold_left tadd_vertex L g) /\
  (forall x, tvertex (fold_left tadd_vertex L g) x <-> tvertex g x \/ In x L) /\ (forall x y, wt (fold_left tadd_vertex L g) x y = None).
Proof.
  induction L as [|u L IH]; intros g D W; cbn [fold_left]; [split; [exact D|split; [cbn; tauto|exact W]]|].
  destruct (tadd_vertex_ok g u D W) as (D' & V' & W'). destruct (IH _ D' W') as (D2 & V2 & W2).
  split; [exact D2|]. split; [|exact W2]. intros x. rewrite V2, V'. cbn [In]. intuition.
Qed.

Lemma tdisjoint_iff u v : tdisjoint u v = true <-> disjoint u v.
Proof.
  unfold tdisjoint, disjoint. rewrite forallb_forall. split.
  - intros H c Hu Hv. apply H in Hu. apply negb_true_iff in Hu. assert (X : existsb (Ascii.eqb c) v = true) by (apply existsb_exists; exists c; split; [exact Hv|apply Ascii.eqb_eq; reflexivity]).
    congruence.
  - intros H c Hc. apply negb_true_iff. destruct (existsb (Ascii.eqb c) v) eqn:E; [|reflexivity]. apply existsb_exists in E as (d & Hd & E). apply Ascii.eqb_eq in E. subst.
    destruct (H d Hc Hd).
Qed.

Lemma odd_edges_ok L : forall g, distinct_keys g -> (forall x y w, wt g x y = Some w -> w = 1) -> (forall p, In p L -> exists u v, p = [u; v] /\ tvertex g u /\ tvertex g v) ->
  distinct_keys (fold_left odd_edge L g) /\ (forall x, tvertex (fold_left odd_edge L g) x <-> tvertex g x) /\
  (forall x y w, wt (fold_left odd_edge L g) x y = Some w <->
     wt g x y = Some w \/ (w = 1 /\ disjoint x y /\ (In [x; y] L \/ In [y; x] L))).
Proof.
  induction L as [|p L IH]; intros g D H1 HL; cbn [fold_left]; [split; [exact D|split; [tauto|cbn; tauto]]|].
  destruct (HL p (or_introl eq_refl)) as (u & v & -> & Hu & Hv). cbn [odd_edge]. destruct (tdisjoint u v) eqn:E.
  - apply tdisjoint_iff in E. destruct (tadd_edge_ok g u v 1 D) as (D' & V' & W').
    assert (HD : forall x y, ((x = u /\ y = v) \/ (x = v /\ y = u)) \/ ~ ((x = u /\ y = v) \/ (x = v /\ y = u))).
    { intros x y. destruct (text_dec x u), (text_dec y v), (text_dec x v), (text_dec y u); tauto. }
    destruct (IH (tadd_edge g u v 1) D') as (D2 & V2 & W2).
    + intros x y w. destruct (HD x y) as [X|X]; [rewrite (proj1 (W' x y) X); congruence|rewrite (proj2 (W' x y) X); apply H1].
    + intros q Hq. destruct (HL q (or_intror Hq)) as (a & b & -> & Ha & Hb). exists a, b. split; [reflexivity|]. split; apply V'; auto.
    + split; [exact D2|]. split; [intros x; rewrite V2, V'; intuition congruence|]. intros x y w. rewrite W2. destruct (HD x y) as [X|X].
      * rewrite (proj1 (W' x y) X). split.
        -- intros [Ew|(-> & Hd & [Hi|Hi])]; [injection Ew as <-|right; cbn; auto|right; cbn; auto]. right. split; [reflexivity|].
           destruct X as [(-> & ->)|(-> & ->)]; (split; [|cbn; auto]); [exact E|intros c Hc Hc'; exact (E c Hc' Hc)].
        -- intros [Ew|(-> & _)]; [left; apply H1 in Ew; congruence|left; reflexivity].
      * rewrite (proj2 (W' x y) X). cbn [In]. split; [tauto|]. intros [Ew|(-> & Hd & [[Hi|Hi]|[Hi|Hi]])]; [auto| |auto| |auto]; injection Hi as <- <-; exfalso; apply X; auto.
  - destruct (IH g D H1) as (D2 & V2 & W2); [intros q Hq; apply HL; right; exact Hq|]. split; [exact D2|]. split; [exact V2|]. intros x y w. rewrite W2. cbn [In].
    assert (NE : ~ disjoint u v) by (intros X; apply tdisjoint_iff in X; congruence).
    split; [tauto|]. intros [Ew|(-> & Hd & [[Hi|Hi]|[Hi|Hi]])]; [auto| |auto 6| |auto 6]; injection Hi as <- <-; exfalso; apply NE; [exact Hd|intros c Hc Hc'; exact (Hd c Hc' Hc)].
Qed.

(** ** Selections *)
Lemma subsequence_nil {A} (l : list A) : subsequence [] l.
Proof. induction l; [constructor|apply sub_skip; assumption]. Qed.

Lemma selections_in {A} (l : list A) : forall r u, In u (selections r l) <-> subsequence u l /\ length u = r.
Proof.
  induction l as [|x l IH]; intros [|r] u; cbn [selections].
  - split; [intros [<-|[]]; split; [constructor|reflexivity]|]. intros (_ & H). destruct u; [left; reflexivity|discriminate].
  - split; [intros []|]. intros (H & E). inversion H; subst; discriminate.
  - split; [intros [<-|[]]; split; [apply subsequence_nil|reflexivity]|]. intros (_ & H). destruct u; [left; reflexivity|discriminate].
  - rewrite in_app_iff, in_map_iff, IH. split.
    + intros [(v & <- & Hv)|(H & E)]; [apply IH in Hv as (H & E); split; [constructor; exact H|cbn; congruence]|]. split; [apply sub_skip, H|exact E].
    + intros (H & E). inversion H; subst; [left|right].
      * exists u0. split; [reflexivity|]. apply IH. split; [assumption|]. cbn in E. congruence.
      * split; assumption.
Qed.

Lemma subsequence_in {A} (u l : list A) : subsequence u l -> forall x, In x u -> In x l.
Proof. induction 1; intros y Hy; [exact Hy|destruct Hy as [->|Hy]; [left; reflexivity|right; auto]|right; auto]. Qed.

Lemma selections_nodup {A} (l : list A) : NoDup l -> forall r, NoDup (selections r l).
Proof.
  induction 1 as [|x l Hx N IH]; intros [|r]; cbn [selections]; try (repeat constructor; intros []; fail).
  apply NoDup_app_intro.
  - apply FinFun.Injective_map_NoDup; [intros a b E; congruence|apply IH].
  - apply IH.
  - intros u H1 H2. apply in_map_iff in H1 as (v & <- & _). apply selections_in in H2 as (H2 & _). apply Hx. eapply subsequence_in; [exact H2|left; reflexivity].
Qed.

Lemma selections_length {A} (l : list A) : forall r, Z.of_nat (length (selections r l)) = choose (length l) r.
Proof.
  induction l as [|x l IH]; intros [|r]; try reflexivity. cbn [selections length choose]. rewrite app_length, map_length, Nat2Z.inj_add, !IH. reflexivity.
Qed.

Lemma subsequence_pair {A} (l : list A) x y : (forall a b : A, a = b \/ a <> b) -> In x l -> In y l -> x <> y -> subsequence [x; y] l \/ subsequence [y; x] l.
Proof.
  intros D. induction l as [|z l IH]; [intros []|].
  assert (One : forall a, In a l -> subsequence [a] l).
  { clear IH. induction l as [|b l IH]; [intros a []|]. intros a [->|H]; [apply sub_take, subsequence_nil|apply sub_skip, IH, H]. }
  intros [->|Hx] [->|Hy] N; [congruence| | |].
  - left. apply sub_take, One, Hy.
  - right. apply sub_take, One, Hx.
  - destruct (IH Hx Hy N) as [H|H]; [left|right]; apply sub_skip, H.
Qed.

Lemma subsequence_nodup {A} (u l : list A) : subsequence u l -> NoDup l -> NoDup u.
Proof.
  induction 1; intros N; [constructor| |]; inversion_clear N; auto. constructor; [|auto]. intros X. eapply subsequence_in in X; [|exact H]. contradiction.
Qed.

Lemma tinsert_perm u l : Permutation (tinsert u l) (u :: l).
Proof. induction l as [|v l IH]; cbn [tinsert]; [apply Permutation_refl|]. destruct (tleb u v); [apply Permutation_refl|]. eapply perm_trans; [apply perm_skip, IH|apply perm_swap]. Qed.
Lemma tsort_perm l : Permutation (tsort l) l.
Proof. induction l as [|u l IH]; [constructor|]. cbn [tsort fold_right]. eapply perm_trans; [apply tinsert_perm|]. apply perm_skip, IH. Qed.

Definition odd_ints (k : Z) : text := set_text (zrange 0 (2 * k - 1)).

Theorem odd_graph_ok k : 1 <= k -> exists g, odd_graph k = Ret g /\ distinct_keys g /\
  (forall u, tvertex g u <-> subsequence u (odd_ints k) /\ Z.of_nat (length u) = k - 1) /\
  (forall u v w, tweight g u v w <-> w = 1 /\ tvertex g u /\ tvertex g v /\ u <> v /\ disjoint u v).
Proof.
  intros Hk. unfold odd_graph. destruct (Z.ltb_spec (k - 1) 0); [lia|]. cbv zeta. set (L := selections (Z.to_nat (k - 1)) _).
  assert (E0 : distinct_keys []) by (split; [constructor|intros u a []]).
  destruct (tadd_vertices_ok L [] E0 (fun _ _ => eq_refl)) as (D & V & W). set (g := fold_left tadd_vertex L []) in *.
  pose proof (tsort_perm (map fst g)) as P. fold (tvertices g) in P.
  assert (PV : forall x, In x (tvertices g) <-> tvertex g x) by (intros x; split; apply Permutation_in; [exact P|symmetry; exact P]).
  assert (PN : NoDup (tvertices g)) by (eapply Permutation_NoDup; [symmetry; exact P|apply D]).
  destruct (odd_edges_ok (selections 2 (tvertices g)) g D) as (D2 & V2 & W2).
  - intros x y w. rewrite W. discriminate.
  - intros p Hp. apply selections_in in Hp as (Hs & Hl). destruct p as [|u [|v [|]]]; try discriminate. exists u, v. split; [reflexivity|].
    split; apply PV; eapply subsequence_in; try exact Hs; cbn; auto.
  - eexists. split; [reflexivity|]. split; [exact D2|]. split.
    + intros u. rewrite V2, V. pose proof (selections_in (odd_ints k) (Z.to_nat (k - 1)) u) as X. change (In u L <-> subsequence u (odd_ints k) /\ length u = Z.to_nat (k - 1)) in X.
      rewrite X. unfold tvertex. cbn [map In]. intuition lia.
    + intros u v w. rewrite (tweight_wt _ u v w D2), W2, W, !V2. split.
      * intros [X|(-> & Hd & Hi)]; [discriminate|]. split; [reflexivity|].
        assert (X : forall a b, In [a; b] (selections 2 (tvertices g)) -> tvertex g a /\ tvertex g b /\ a <> b).
        { intros a b Hab. apply selections_in in Hab as (Hs & _). pose proof (subsequence_nodup _ _ Hs PN) as N2. inversion_clear N2 as [|? ? Nab _].
          rewrite <- !PV. pose proof (subsequence_in _ _ Hs) as Q. repeat split; [apply Q|apply Q|]; cbn; auto. intros ->. apply Nab. left. reflexivity. }
        destruct Hi as [Hi|Hi]; apply X in Hi; destruct Hi as (A1 & A2 & A3); repeat split; auto.
      * intros (-> & Hu & Hv & N & Hd). right. split; [reflexivity|]. split; [exact Hd|]. rewrite !selections_in. cbn [length].
        destruct (subsequence_pair (tvertices g) u v text_dec) as [X|X]; [apply PV, Hu|apply PV, Hv|exact N|left; auto|right; auto].
Qed.
