(** * Proofs: rooted trees given by the father of each vertex *)
From Coq Require Import ZArith List Bool Lia Permutation.
From Verif Require Import Base Py Lists Dict Graph_Model Graph_Spec UF_Model UF_Spec UF_Proofs2 MST_Model MST_Spec MST_Proofs.
Import ListNotations.
Open Scope Z_scope.

Section Rooted.
  Context (V : list Z) (root : Z) (F : Z -> Z) (D : Z -> nat).

  Definition rooted : Prop := NoDup V /\ In root V /\ (forall v, In v V -> In (F v) V) /\ F root = root /\ (forall v, In v V -> v <> root -> D v = S (D (F v))) /\ D root = O.
  Hypothesis R : rooted.
  Lemma HV : NoDup V. Proof using R. apply R. Qed.
  Lemma Hr : In root V. Proof using R. apply R. Qed.
  Lemma HF : forall v, In v V -> In (F v) V. Proof using R. apply R. Qed.
  Lemma Fr : F root = root. Proof using R. apply R. Qed.
  Lemma HD : forall v, In v V -> v <> root -> D v = S (D (F v)). Proof using R. apply R. Qed.

  Lemma Dr : D root = O. Proof using R. apply R. Qed.

  (** a is an ancestor of u. *)
  Inductive anc (a : Z) : Z -> Prop :=
  | an_refl : anc a a
  | an_step u : anc a (F u) -> anc a u.

  Lemma anc_trans a b c : anc a b -> anc b c -> anc a c.
  Proof using. intros H1 H2. induction H2 as [|u H IH]; [exact H1|constructor; exact IH]. Qed.
  Lemma anc_father u : anc (F u) u.
  Proof using. constructor. constructor. Qed.
  Lemma anc_In a u : anc a u -> In u V -> In a V.
  Proof using R. intros H. induction H as [|u H IH]; intros I; [exact I|]. apply IH. apply HF. exact I. Qed.
  Lemma anc_D a u : anc a u -> In u V -> (a = u \/ D a < D u)%nat.
  Proof using R.
    intros H. induction H as [|u H IH]; intros I; [left; reflexivity|]. specialize (IH (HF u I)). destruct (Z.eq_dec u root) as [->|Nu]; [rewrite Fr in IH; exact IH|].
    right. pose proof (HD u I Nu). destruct IH as [->|IH]; lia.
  Qed.
  Lemma anc_total a b u : anc a u -> anc b u -> anc a b \/ anc b a.
  Proof using.
    intros H. induction H as [|u H IH]; intros B; [right; exact B|]. inversion B; subst; [left; constructor; exact H|apply IH; assumption].
  Qed.
  Lemma anc_root_only a : anc a root -> a = root.
  Proof using R. assert (G : forall r, anc a r -> r = root -> a = root); [|intros H; apply (G root H eq_refl)]. intros r H. induction H as [|u H IH]; intros E; [exact E|]. subst u. apply IH. exact Fr. Qed.
  Lemma anc_root u : In u V -> anc root u.
  Proof using R.
    remember (D u) as n eqn:E. revert u E. induction n as [n IH] using lt_wf_ind. intros u E I. destruct (Z.eq_dec u root) as [->|Nu]; [constructor|]. constructor. pose proof (HD u I Nu). apply (IH (D (F u))); [lia|reflexivity|apply HF; exact I].
  Qed.
  Lemma anc_antisym a b : In a V -> In b V -> anc a b -> anc b a -> a = b.
  Proof using R. intros Ia Ib H1 H2. destruct (anc_D a b H1 Ib) as [E|L1]; [exact E|]. destruct (anc_D b a H2 Ia) as [E|L2]; [congruence|lia]. Qed.
  Lemma anc_above v : In v V -> v <> root -> ~ anc v (F v).
  Proof using R. intros I N H. pose proof (HD v I N). destruct (anc_D v (F v) H (HF v I)) as [E|L]; [rewrite <- E in H0|]; lia. Qed.

  Lemma D_bound u : In u V -> (D u < length V)%nat.
  Proof using R.
    intros I. enough (exists l, NoDup l /\ incl l V /\ length l = S (D u) /\ forall z, In z l -> (D z <= D u)%nat) as (l & N & In & L & _) by (pose proof (NoDup_incl_length N In); lia).
    remember (D u) as n eqn:E. revert u E I. induction n as [|n IH]; intros u E I.
    - exists [u]. split; [constructor; [auto|constructor]|]. split; [intros z [<-|[]]; exact I|]. split; [reflexivity|]. intros z [<-|[]]. lia.
    - assert (Nu : u <> root) by (intros ->; rewrite Dr in E; discriminate). pose proof (HD u I Nu). destruct (IH (F u) ltac:(lia) (HF u I)) as (l & N & Il & L & B). exists (u :: l). split; [constructor; [intros X; specialize (B u X); lia|exact N]|]. split; [intros z [<-|Hz]; [exact I|apply Il; exact Hz]|]. split; [cbn; lia|]. intros z [<-|Hz]; [lia|]. specialize (B z Hz). lia.
  Qed.

  (** As a boolean. *)
  Fixpoint subn (n : nat) (v u : Z) : bool := (u =? v) || match n with O => false | S n => subn n v (F u) end.
  Definition sub (v u : Z) : bool := subn (D u) v u.
  Lemma sub_anc v u : In u V -> (sub v u = true <-> anc v u).
  Proof using R.
    intros I. unfold sub. split.
    - generalize (D u). intros n. clear I. revert u. induction n as [|n IH]; intros u; cbn [subn]; rewrite orb_true_iff, Z.eqb_eq; (intros [->|H]; [constructor|]); [discriminate|]. constructor. apply IH. exact H.
    - intros H. induction H as [|u H IH]; [destruct (D v); cbn; rewrite Z.eqb_refl; reflexivity|]. specialize (IH (HF u I)). destruct (Z.eq_dec u root) as [->|Nu].
      + rewrite Fr in IH, H. exact IH.
      + rewrite (HD u I Nu). cbn [subn]. rewrite IH. apply orb_true_r.
  Qed.
  Lemma sub_false v u : In u V -> (sub v u = false <-> ~ anc v u).
  Proof using R. intros I. rewrite <- (sub_anc v u I). destruct (sub v u); intuition congruence. Qed.
  Lemma sub_father v u : In u V -> u <> v -> sub v u = sub v (F u).
  Proof using R.
    intros I N. apply eq_true_iff_eq. rewrite (sub_anc v u I), (sub_anc v (F u) (HF u I)). split; [intros H; inversion H; subst; [contradiction|assumption]|constructor; assumption].
  Qed.

  (** The edges of the tree. *)
  Definition tedges : list (Z * Z) := map (fun v => (v, F v)) (filter (fun v => negb (v =? root)) V).
  Lemma tedges_In u p : In (u, p) tedges <-> In u V /\ u <> root /\ p = F u.
  Proof using.
    unfold tedges. rewrite in_map_iff. split.
    - intros (v & E & H). injection E as -> <-. apply filter_In in H as (I & N). apply negb_true_iff, Z.eqb_neq in N. auto.
    - intros (I & N & ->). exists u. split; [reflexivity|]. apply filter_In. split; [exact I|]. apply negb_true_iff, Z.eqb_neq. exact N.
  Qed.
  Lemma tedges_keys A v p B : tedges = A ++ (v, p) :: B -> forall q, ~ In (v, q) (A ++ B).
  Proof using R.
    intros E q I. assert (N : NoDup (map fst tedges)). { unfold tedges. rewrite map_map. cbn. rewrite map_id. apply NoDup_filter. exact HV. }
    rewrite E, map_app in N. cbn [map fst] in N. apply NoDup_remove_2 in N. apply N. rewrite <- map_app. apply (in_map fst) in I. exact I.
  Qed.
  Lemma tedges_length : S (length tedges) = length V.
  Proof using R.
    unfold tedges. rewrite map_length. assert (P : forall l, NoDup l -> In root l -> S (length (filter (fun v => negb (v =? root)) l)) = length l).
    { induction l as [|a l IH]; intros N I; [contradiction|]. inversion N; subst. cbn [filter length]. destruct (Z.eqb_spec a root) as [->|Na]; cbn [negb].
      - f_equal. f_equal. assert (Q : forall m, ~ In root m -> filter (fun v => negb (v =? root)) m = m). { clear. induction m as [|b m IHm]; intros Q; [reflexivity|]. cbn [filter]. destruct (Z.eqb_spec b root) as [->|]; [destruct Q; left; reflexivity|]. cbn [negb]. f_equal. apply IHm. intros I. apply Q. right. exact I. } apply Q. assumption.
      - cbn [length]. f_equal. apply IH; [assumption|]. destruct I as [I|I]; [congruence|exact I]. }
    apply P; [exact HV|exact Hr].
  Qed.
  Lemma tree_linked a : In a V -> linked tedges a root.
  Proof using R.
    remember (D a) as n eqn:E. revert a E. induction n as [n IH] using lt_wf_ind. intros a E I. destruct (Z.eq_dec a root) as [->|Na]; [apply linked_refl|]. pose proof (HD a I Na). apply (linked_trans _ a (F a) root); [apply linked_edge; apply tedges_In; auto|]. apply (IH (D (F a))); [lia|reflexivity|apply HF; exact I].
  Qed.

  (** Without the edge from v to its father two vertices are linked exactly when both or none are below v. *)
  Lemma linked_cut A v p B : tedges = A ++ (v, p) :: B -> forall a b, In a V -> In b V -> (linked (A ++ B) a b <-> sub v a = sub v b).
  Proof using R.
    intros E. assert (Iv : In v V /\ v <> root /\ p = F v) by (apply tedges_In; rewrite E; apply in_elt). destruct Iv as (Iv & Nv & Ep).
    assert (Ed : forall u, In u V -> u <> root -> u <> v -> In (u, F u) (A ++ B)).
    { intros u Iu Nu Nuv. assert (X : In (u, F u) tedges) by (apply tedges_In; auto). rewrite E in X. apply in_app_or in X as [X|[X|X]]; [apply in_or_app; auto|injection X as -> _; contradiction|apply in_or_app; auto]. }
    intros a b Ia Ib. split.
    - intros L. clear Ia Ib. induction L as [u q I|u|u w _ IH|u w z _ IH1 _ IH2]; try congruence. assert (X : In (u, q) tedges) by (rewrite E; apply in_app_or in I as [I|I]; apply in_or_app; [left|right; right]; exact I). apply tedges_In in X as (Iu & Nu & ->). apply sub_father; [exact Iu|]. intros ->. apply (tedges_keys A v p B E (F v)). exact I.
    - assert (Up : forall u, In u V -> anc v u -> linked (A ++ B) u v).
      { intros u Iu H. induction H as [|u H IH]; [apply linked_refl|]. destruct (Z.eq_dec u v) as [->|N]; [apply linked_refl|]. destruct (Z.eq_dec u root) as [->|Nu]; [rewrite Fr in H; exfalso; apply Nv; apply anc_root_only; exact H|].
        apply (linked_trans _ u (F u) v); [apply linked_edge; apply Ed; assumption|apply IH; apply HF; exact Iu]. }
      assert (Dn : forall n u, D u = n -> In u V -> ~ anc v u -> linked (A ++ B) u root).
      { induction n as [n IH] using lt_wf_ind. intros u En Iu Na. destruct (Z.eq_dec u root) as [->|Nu]; [apply linked_refl|]. pose proof (HD u Iu Nu). apply (linked_trans _ u (F u) root); [apply linked_edge; apply Ed; [assumption|assumption|intros ->; apply Na; constructor]|].
        apply (IH (D (F u))); [lia|reflexivity|apply HF; exact Iu|intros H'; apply Na; constructor; exact H']. }
      intros S. destruct (sub v a) eqn:Sa; symmetry in S.
      + apply (linked_trans _ a v b); [apply Up; [exact Ia|apply sub_anc; assumption]|apply linked_sym, Up; [exact Ib|apply sub_anc; assumption]].
      + apply (linked_trans _ a root b); [apply (Dn (D a)); [reflexivity|exact Ia|apply sub_false; assumption]|apply linked_sym, (Dn (D b)); [reflexivity|exact Ib|apply sub_false; assumption]].
  Qed.

  (** The nearest ancestor that has not been contracted. *)
  Section Top.
    Context (K : Z -> bool).
    Fixpoint topn (n : nat) (u : Z) : Z := if K u then match n with O => u | S n => topn n (F u) end else u.
    Definition top (u : Z) : Z := topn (D u) u.
    Hypothesis Kr : K root = false.
    Lemma top_free u : K u = false -> top u = u.
    Proof using. intros E. unfold top. destruct (D u); cbn [topn]; rewrite E; reflexivity. Qed.
    Lemma top_step u : In u V -> K u = true -> top u = top (F u).
    Proof using Kr R. intros I E. assert (N : u <> root) by congruence. unfold top. rewrite (HD u I N). cbn [topn]. rewrite E. reflexivity. Qed.
    Lemma top_spec : forall n u, D u = n -> In u V -> anc (top u) u /\ In (top u) V /\ K (top u) = false /\ forall z, anc z u -> K z = false -> anc z (top u).
    Proof using Kr R.
      induction n as [n IH] using lt_wf_ind. intros u E I. destruct (K u) eqn:Ku.
      - assert (N : u <> root) by congruence. pose proof (HD u I N). rewrite (top_step u I Ku). destruct (IH (D (F u)) ltac:(lia) (F u) eq_refl (HF u I)) as (A & B & C & E'). split; [constructor; exact A|]. split; [exact B|]. split; [exact C|]. intros z Hz Kz. inversion Hz; subst; [congruence|]. apply E'; assumption.
      - rewrite (top_free u Ku). split; [constructor|]. split; [exact I|]. split; [exact Ku|auto].
    Qed.
  End Top.

  Lemma top_add K v : K root = false -> In v V -> v <> root -> K v = false ->
    forall n u, D u = n -> In u V -> top (fun z => (z =? v) || K z) u = njoin (top K) v (top K (F v)) (top K (F v)) u.
  Proof using R.
    intros Kr Iv Nv Kv. set (K' := fun z => (z =? v) || K z). assert (Kr' : K' root = false) by (unfold K'; rewrite Kr; destruct (Z.eqb_spec root v); [congruence|reflexivity]).
    assert (Tv : top K (F v) <> v). { destruct (top_spec K Kr _ (F v) eq_refl (HF v Iv)) as (A & _). intros E. rewrite E in A. apply (anc_above v Iv Nv A). }
    unfold njoin. induction n as [n IH] using lt_wf_ind. intros u E I. destruct (Z.eq_dec u v) as [->|Nuv].
    - rewrite (top_step K' Kr' v I) by (unfold K'; rewrite Z.eqb_refl; reflexivity). pose proof (HD v I Nv). rewrite (IH (D (F v)) ltac:(lia) (F v) eq_refl (HF v I)). rewrite (top_free K v Kv), Z.eqb_refl. cbn [orb]. rewrite Z.eqb_refl, orb_true_r. reflexivity.
    - destruct (K u) eqn:Ku.
      + assert (N : u <> root) by congruence. pose proof (HD u I N). rewrite (top_step K' Kr' u I) by (unfold K'; rewrite Ku; apply orb_true_r). rewrite (top_step K Kr u I Ku). apply (IH (D (F u))); [lia|reflexivity|apply HF; exact I].
      + rewrite (top_free K' u) by (unfold K'; rewrite Ku; destruct (Z.eqb_spec u v); [contradiction|reflexivity]). rewrite (top_free K u Ku). destruct (Z.eqb_spec u v); [contradiction|]. cbn [orb]. destruct (Z.eqb_spec u (top K (F v))); [assumption|reflexivity].
  Qed.
End Rooted.

Lemma ninv_ext K s c c' : (forall x, In x K -> c x = c' x) -> ninv K s c -> ninv K s c'.
Proof. intros E (H1 & H2). split; [exact H1|]. intros x Hx. rewrite <- (E x Hx). apply H2. exact Hx. Qed.
