(** * Proofs: the dictionaries of fathers, the tree after an exchange, and the whole search *)
From Coq Require Import ZArith List Bool Lia Permutation Sorting.Sorted.
From Verif Require Import Base Py Lists Dict Graph_Model Graph_Spec Graph_Proofs Graph_Proofs2 UF_Model UF_Spec UF_Proofs2 Trav_Model Trav_Spec Trav_Proofs Paths_Model MST_Model MST_Spec MST_Proofs MST_Proofs2
  Gab_Spec Gab_Model Gab_Proofs Gab_Proofs2 Gab_Proofs3.
Import ListNotations.
Open Scope Z_scope.

(** ** Depths *)
Lemma choose_on {A : Type} (P : Z -> A -> Prop) (d : A) : forall l, (forall v, In v l -> exists n, P v n) -> exists f, forall v, In v l -> P v (f v).
Proof.
  induction l as [|a l IH]; intros H; [exists (fun _ => d); intros v []|]. destruct (H a (or_introl eq_refl)) as (n & Hn). destruct IH as (f & Hf); [intros v I; apply H; right; exact I|].
  exists (fun v => if v =? a then n else f v). intros v I. destruct (Z.eqb_spec v a) as [->|N]; [exact Hn|]. destruct I as [I|I]; [congruence|]. apply Hf, I.
Qed.

Lemma iter_S_r (F : Z -> Z) n v : Nat.iter (S n) F v = Nat.iter n F (F v).
Proof. induction n as [|n IH]; [reflexivity|]. cbn [Nat.iter nat_rect] in *. rewrite IH. reflexivity. Qed.

Lemma rooted_intro V root F : NoDup V -> In root V -> (forall v, In v V -> In (F v) V) -> F root = root -> (forall v, In v V -> exists n, Nat.iter n F v = root) -> exists D, rooted V root F D.
Proof.
  intros N Ir IF Fr Re. set (P := fun v n => Nat.iter n F v = root /\ forall m, Nat.iter m F v = root -> (n <= m)%nat).
  destruct (choose_on P O V) as (D & HD).
  - intros v Iv. destruct (Re v Iv) as (n & Hn). induction n as [n IH] using lt_wf_ind.
    assert (Dc : (forall m, (m < n)%nat -> Nat.iter m F v <> root) \/ exists m, (m < n)%nat /\ Nat.iter m F v = root).
    { clear. induction n as [|n IH]; [left; intros; lia|]. destruct IH as [IH|(m & L & E)]; [|right; exists m; split; [lia|exact E]]. destruct (Z.eq_dec (Nat.iter n F v) root) as [E|E]; [right; exists n; split; [lia|exact E]|left]. intros m L. destruct (Nat.eq_dec m n) as [->|]; [exact E|apply IH; lia]. }
    destruct Dc as [Dc|(m & L & E)]; [|apply (IH m L E)]. exists n. split; [exact Hn|]. intros m E. destruct (le_lt_dec n m); [assumption|]. destruct (Dc m); assumption.
  - exists D. split; [exact N|]. split; [exact Ir|]. split; [exact IF|]. split; [exact Fr|]. split.
    + intros v Iv Nv. destruct (HD v Iv) as (E1 & L1). destruct (HD (F v) (IF v Iv)) as (E2 & L2). assert (L : (D v <= S (D (F v)))%nat) by (apply L1; rewrite iter_S_r; exact E2). destruct (D v) as [|n] eqn:En; [cbn in E1; congruence|]. rewrite iter_S_r in E1. specialize (L2 n E1). lia.
    + destruct (HD root Ir) as (_ & L). specialize (L O eq_refl). lia.
Qed.

(** From the root every vertex is linked by the edges to the fathers. *)
Lemma linked_iter V root F T : F root = root -> (forall u p, In (u, p) T -> p = F u) -> (forall v, In v V -> linked T v root) -> forall v, In v V -> exists n, Nat.iter n F v = root.
Proof.
  intros Fr HT L v Iv. assert (Q : forall a b, linked T a b -> (exists n, Nat.iter n F a = root) <-> exists n, Nat.iter n F b = root).
  { intros a b H. induction H as [u p I|u|u w _ IH|u w z _ IH1 _ IH2]; [|reflexivity|symmetry; exact IH|rewrite IH1; exact IH2]. apply HT in I. subst p. split.
    - intros (n & E). destruct n as [|n]; [cbn in E; subst u; exists O; exact Fr|]. exists n. rewrite iter_S_r in E. exact E.
    - intros (n & E). exists (S n). rewrite iter_S_r. exact E. }
  apply (Q v root (L v Iv)). exists O. reflexivity.
Qed.

Section Fathers.
  Context (g : graph) (root : Z).
  Hypothesis Hg : undirected g.
  Notation V := (map fst g).

  (** The dictionary father holds the fathers F. *)
  Definition fok (father : prevs) (F : Z -> Z) : Prop :=
    NoDup (map fst father) /\ (forall v, In v (map fst father) <-> In v V) /\ forall v, In v V -> dget father v = Some (Some (F v)).

  Lemma fok_In father F : fok father F -> forall v p, In (v, p) father <-> In v V /\ p = Some (F v).
  Proof using.
    intros (N & K & E) v p. split.
    - intros I. assert (Iv : In v V) by (apply K; apply (in_map fst) in I; exact I). split; [exact Iv|]. pose proof (E v Iv) as Q. rewrite (dget_In father v p N I) in Q. congruence.
    - intros (Iv & ->). apply dget_Some_In, E, Iv.
  Qed.
  Lemma fok_length father F : fok father F -> (length V <= length father)%nat.
  Proof using Hg. intros (N & K & _). rewrite <- (map_length fst father). apply NoDup_incl_length; [apply (proj1 Hg)|]. intros v I. apply K, I. Qed.

  Lemma father_edges_ok father F D : fok father F -> rooted V root F D -> father_edges father = Tx g root F.
  Proof using Hg.
    intros Fo R. unfold father_edges, Tx, canon. set (raw := flat_map (fun '(x, p) => match p with Some y => if x =? y then [] else [(x, y)] | None => [] end) father).
    assert (E : flat_map (fun '(x, p) => match p with Some y => if x =? y then [] else [ordered x y] | None => [] end) father = norm raw).
    { unfold raw, norm. clear. induction father as [|(x & p) l IH]; [reflexivity|]. cbn [flat_map]. rewrite map_app, IH. f_equal. destruct p as [y|]; [destruct (x =? y)|]; reflexivity. }
    rewrite E. assert (P : Permutation raw (tedges V root F)).
    { apply NoDup_Permutation.
      - destruct Fo as (N & _). unfold raw. clear - N. induction father as [|(x & p) l IH]; [constructor|]. cbn [map fst] in N. inversion N; subst. cbn [flat_map]. destruct p as [y|]; [destruct (x =? y)|]; cbn [app]; auto. constructor; [|auto]. intros I. apply in_flat_map in I as ((x' & [y'|]) & I & J); [|destruct J]. destruct (x' =? y'); [destruct J|]. destruct J as [J|[]]. injection J as -> _. apply H1. apply (in_map fst) in I. exact I.
      - apply (NoDup_map_inv fst). unfold tedges. rewrite map_map. cbn. rewrite map_id. apply NoDup_filter, Hg.
      - intros (u & q). rewrite tedges_In. unfold raw. rewrite in_flat_map. split.
        + intros ((x & [y|]) & I & J); [|destruct J]. destruct (Z.eqb_spec x y) as [|Nxy]; [destruct J|]. destruct J as [J|[]]. injection J as -> ->. apply (fok_In father F Fo) in I as (Iu & Q). injection Q as ->. split; [exact Iu|]. split; [|reflexivity]. intros ->. apply Nxy. symmetry. apply (Fr V root F D R).
        + intros (Iu & Nu & ->). exists (u, Some (F u)). split; [apply (fok_In father F Fo); auto|]. pose proof (HD V root F D R u Iu Nu). destruct (Z.eqb_spec u (F u)) as [Q|_]; [rewrite <- Q in H; lia|left; reflexivity]. }
    assert (Pn : Permutation (norm raw) (norm (tedges V root F))) by (apply Permutation_map, P).
    assert (Nn : NoDup (norm (tedges V root F))).
    { unfold norm, tedges. rewrite map_map. cbn [fst snd]. assert (Inj : forall l, NoDup l -> (forall v, In v l -> In v V /\ v <> root) -> NoDup (map (fun v => ordered v (F v)) l)).
      { induction l as [|a l IH]; intros N H; [constructor|]. inversion N; subst. cbn [map]. constructor; [|apply IH; [assumption|intros v I; apply H; right; exact I]]. intros I. apply in_map_iff in I as (b & Eb & I). destruct (H a (or_introl eq_refl)) as (Ia & Na). destruct (H b (or_intror I)) as (Ib & Nb). apply ordered_eq in Eb as [(-> & _)|(E1 & E2)]; [contradiction|]. pose proof (HD V root F D R a Ia Na). pose proof (HD V root F D R b Ib Nb). rewrite E2 in *. rewrite <- E1 in *. lia. }
      apply Inj; [apply NoDup_filter, Hg|]. intros v I. apply filter_In in I as (I & Q). apply negb_true_iff, Z.eqb_neq in Q. auto. }
    apply sorted_eq; [apply sort_pairs_sorted; rewrite Pn; exact Nn|apply sort_pairs_sorted, Nn|]. intros e. split; intros I; (apply (Permutation_in _ (Permutation_sym (sort_pairs_perm _)))); apply (Permutation_in _ (sort_pairs_perm _)) in I; [apply (Permutation_in _ Pn I)|apply (Permutation_in _ (Permutation_sym Pn) I)].
  Qed.

  (** A dictionary of parents in which the root has none. *)
  Lemma fathers_of prev T : NoDup (map fst prev) -> (forall v, In v (map fst prev) <-> In v V) -> (forall v, In (v, None) prev <-> v = root) ->
    (forall v p, In (v, Some p) prev -> In p V /\ In (v, p) T) -> (forall u p, In (u, p) T -> In (u, Some p) prev) -> (forall v, In v V -> linked T v root) ->
    exists F D, fok (dset prev root (Some root)) F /\ rooted V root F D /\ (forall v, In v V -> v <> root -> In (v, F v) T).
  Proof using Hg.
    intros N K Rt Ed Te L. set (F := fun v => match dget prev v with Some (Some p) => p | _ => root end).
    assert (Ir : In root (map fst prev)) by (apply (in_map fst prev (root, None)), Rt; reflexivity).
    assert (Dr : dget prev root = Some None) by (apply dget_In; [exact N|apply Rt; reflexivity]).
    assert (Frt : F root = root) by (unfold F; rewrite Dr; reflexivity).
    assert (FT : forall v, In v V -> v <> root -> dget prev v = Some (Some (F v)) /\ In (v, F v) T /\ In (F v) V).
    { intros v Iv Nv. apply K in Iv. pose proof Iv as Iv'. apply dget_key in Iv' as (o & Eo). unfold F. rewrite Eo. apply dget_Some_In in Eo as I. destruct o as [p|]; [|apply Rt in I; contradiction]. destruct (Ed v p I). auto. }
    assert (Clo : forall v, In v V -> In (F v) V). { intros v Iv. destruct (Z.eq_dec v root) as [->|Nv]; [rewrite Frt; apply K, Ir|apply FT; assumption]. }
    destruct (rooted_intro V root F) as (D & R); [apply Hg|apply K, Ir|exact Clo|exact Frt| |].
    - apply (linked_iter V root F T Frt); [|exact L]. intros u p I. apply Te in I. unfold F. rewrite (dget_In prev u (Some p) N I). reflexivity.
    - exists F, D. split; [|split; [exact R|intros v Iv Nv; apply FT; assumption]]. split; [|split].
      + change (map fst (dset prev root (Some root))) with (dkeys (dset prev root (Some root))). apply dset_NoDup. exact N.
      + intros v. change (map fst (dset prev root (Some root))) with (dkeys (dset prev root (Some root))). rewrite dkeys_dset_In. change (dkeys prev) with (map fst prev). rewrite K. split; [intros [H| ->]; [exact H|apply K, Ir]|auto].
      + intros v Iv. rewrite dget_dset. destruct (Z.eqb_spec root v) as [<-|Nv]; [rewrite Frt; reflexivity|]. apply FT; [exact Iv|congruence].
  Qed.

  Lemma exchange_tree_ok father F D z f A B W : fok father F -> rooted V root F D -> tedges V root F = A ++ (z, F z) :: B ->
    spanning_tree g V (A ++ f :: B) -> tree_of g W (canon (A ++ f :: B)) ->
    exists father' F' D', exchange_tree father root (z, F z) f = Ret father' /\ fok father' F' /\ rooted V root F' D' /\
      (forall v, In v V -> v <> root -> edge g v (F' v)) /\ Tx g root F' = canon (A ++ f :: B).
  Proof using Hg.
    intros Fo R EAB ST TW. destruct f as (x & y). unfold exchange_tree. cbn [fst snd].
    set (L := flat_map (fun '(x, p) => match p with Some y => [(x, y, 1)] | None => [] end) father).
    assert (HL : forall u v w, In (u, v, w) L <-> In u V /\ v = F u /\ w = 1).
    { intros u v w. unfold L. rewrite in_flat_map. split.
      - intros ((a & [b|]) & I & J); [|destruct J]. destruct J as [J|[]]. injection J as -> -> <-. apply (fok_In father F Fo) in I as (I & E). injection E as ->. auto.
      - intros (I & -> & ->). exists (u, Some (F u)). split; [apply (fok_In father F Fo); auto|left; reflexivity]. }
    destruct (add_edges_fun (fun _ _ => 1) L empty_graph empty_undirected) as (U1 & V1 & W1); [reflexivity|intros u v w I; apply HL in I; apply I|].
    set (g1 := add_edges empty_graph L) in *. pose proof (delete_edge_undirected g1 z (F z) U1) as U2. set (g2 := delete_edge g1 z (F z)) in *. pose proof (add_edge_undirected g2 x y 1 U2) as U3. set (g3 := add_edge g2 x y 1) in *.
    pose proof ST as (S1 & S2 & _). destruct (S1 x y (in_elt _ _ _)) as (Ix & Iy & Exy).
    assert (Vg : forall v, vertex g3 v <-> In v V).
    { intros v. unfold g3, g2. rewrite add_edge_vertex, delete_edge_vertex, V1. split.
      - intros [[H|(a & b & w & I & Q)]|[->| ->]]; [destruct H| |exact Ix|exact Iy]. apply HL in I as (I & -> & _). destruct Q as [->| ->]; [exact I|apply (HF V root F D R a I)].
      - intros I. left. right. exists v, (F v), 1. split; [apply HL; auto|auto]. }
    assert (Eg : forall u v, In (u, v) (A ++ (x, y) :: B) -> edge g3 u v).
    { intros u v I. unfold edge. destruct (same_pair_dec x y u v) as [S|S]; [exists 1; apply (proj1 (add_edge_weight g2 x y 1 u v) S)|]. unfold g3. rewrite (proj2 (add_edge_weight g2 x y 1 u v) S).
      assert (J : In (u, v) (A ++ B)). { rewrite in_app_iff in *. cbn [In] in I. destruct I as [I|[I|I]]; auto. destruct S. injection I as <- <-. left. auto. }
      assert (J' : In (u, v) (tedges V root F)) by (rewrite EAB; apply in_app_or in J as [J|J]; apply in_or_app; [left|right; right]; exact J). apply tedges_In in J' as (Iu & Nu & ->).
      assert (Sz : ~ same_pair z (F z) u (F u)). { assert (Q : In (z, F z) (tedges V root F)) by (rewrite EAB; apply in_elt). apply tedges_In in Q as (Iz & Nz & _). intros [(-> & _)|(E1 & E2)]; [apply (tedges_keys V root F D R A z (F z) B EAB _ J)|]. pose proof (HD V root F D R u Iu Nu). pose proof (HD V root F D R z Iz Nz). rewrite E2 in *. subst u. lia. }
      exists 1. unfold g2. rewrite (proj2 (delete_edge_weight g1 z (F z) u (F u) (undirected_wfd g1 U1)) Sz). apply W1. exists u, (F u), 1. split; [apply HL; auto|left; auto]. }
    assert (Ge : forall u v, edge g3 u v -> u <> v -> In (u, v) (A ++ (x, y) :: B) \/ In (v, u) (A ++ (x, y) :: B)).
    { intros u v (w & Q) Nuv. destruct (same_pair_dec x y u v) as [S|S]; [destruct S as [(-> & ->)|(-> & ->)]; [left|right]; apply in_elt|]. unfold g3 in Q. rewrite (proj2 (add_edge_weight g2 x y 1 u v) S) in Q. unfold g2 in Q.
      destruct (same_pair_dec z (F z) u v) as [S'|S']; [rewrite (proj1 (delete_edge_weight g1 z (F z) u v (undirected_wfd g1 U1)) S') in Q; discriminate|]. rewrite (proj2 (delete_edge_weight g1 z (F z) u v (undirected_wfd g1 U1)) S') in Q.
      assert (T : forall a, In a V -> a <> F a -> ~ same_pair z (F z) a (F a) -> In (a, F a) (A ++ (x, y) :: B)).
      { intros a Ia Na Sa. assert (J : In (a, F a) (tedges V root F)) by (apply tedges_In; split; [exact Ia|]; split; [|reflexivity]; intros ->; apply Na; symmetry; apply (Fr V root F D R)). rewrite EAB in J. rewrite in_app_iff in *. cbn [In] in *. destruct J as [J|[J|J]]; auto. destruct Sa. injection J as -> _. left. auto. }
      destruct (in_dec Z.eq_dec u V) as [Iu|Iu]; [destruct (Z.eq_dec (F u) v) as [E|E]|].
      - left. subst v. apply T; assumption.
      - destruct (in_dec Z.eq_dec v V) as [Iv|Iv]; [destruct (Z.eq_dec (F v) u) as [E'|E']|].
        + right. subst u. apply T; [exact Iv|congruence|]. intros S2'. apply S'. apply same_pair_sym. exact S2'.
        + exfalso. rewrite (proj2 (W1 u v)) in Q; [discriminate|]. intros a b c I S2'. apply HL in I as (Ia & -> & _). destruct S2' as [(-> & ->)|(-> & ->)]; congruence.
        + exfalso. rewrite (proj2 (W1 u v)) in Q; [discriminate|]. intros a b c I S2'. apply HL in I as (Ia & -> & _). destruct S2' as [(-> & ->)|(-> & ->)]; [congruence|contradiction].
      - exfalso. rewrite (proj2 (W1 u v)) in Q; [discriminate|]. intros a b c I S2'. apply HL in I as (Ia & -> & _). destruct S2' as [(-> & ->)|(-> & ->)]; [contradiction|]. apply Iu. apply (HF V root F D R). exact Ia. }
    pose proof (Hr V root F D R) as Ir. assert (Vr : vertex g3 root) by (apply Vg, Ir).
    destruct (bfst_ok g3 root U3 Vr) as (prev & E & (N & Rt & Ep & An) & Re & _). rewrite E. cbn [bind].
    assert (K : forall v, In v (map fst prev) <-> In v V).
    { intros v. rewrite Re. split.
      - intros (n & W0). destruct W0 as [|n u v W0 Q]; [exact Ir|]. apply Vg. apply U3 in Q. exact Q.
      - intros Iv. destruct (linked_reach g3 U3 (A ++ (x, y) :: B) root v Eg (S2 root v Ir Iv)) as [<-|H]; [exists O; constructor|exact H]. }
    set (T := parent_edges prev). assert (HT : forall u p, In (u, p) T <-> In (u, Some p) prev).
    { intros u p. unfold T, parent_edges. rewrite in_flat_map. split; [intros ((a & [b|]) & I & J); [|destruct J]; destruct J as [J|[]]; injection J as -> ->; exact I|intros I; exists (u, Some p); split; [exact I|left; reflexivity]]. }
    destruct (fathers_of prev T N K Rt) as (F' & D' & Fo' & R' & HT').
    - intros v p I. split; [|apply HT, I]. apply Ep in I. destruct U3 as (_ & _ & C & Sy). apply Vg. destruct I as (w & Q). apply (C v p). exists w. rewrite Sy. exact Q.
    - intros u p I. apply HT, I.
    - intros v Iv. apply K in Iv. specialize (An v Iv). clear - An HT. induction An as [v|a p v I An IH]; [apply linked_refl|]. apply (linked_trans _ v p a); [apply linked_edge, HT, I|exact IH].
    - exists (dset prev root (Some root)), F', D'. split; [reflexivity|]. split; [exact Fo'|]. split; [exact R'|].
      assert (In' : forall v, In v V -> v <> root -> In (v, F' v) (A ++ (x, y) :: B) \/ In (F' v, v) (A ++ (x, y) :: B)).
      { intros v Iv Nv. pose proof (HT' v Iv Nv) as I. apply HT, Ep in I. destruct (Ge _ _ I); auto. pose proof (HD V root F' D' R' v Iv Nv) as Q. intros E'. rewrite E' in Q. lia. }
      assert (Te' : forall v, In v V -> v <> root -> edge g v (F' v)).
      { intros v Iv Nv. destruct (In' v Iv Nv) as [I|I]; apply S1 in I as (_ & _ & I); [exact I|]. destruct I as (w & Q). exists w. destruct Hg as (_ & _ & _ & Sy). rewrite Sy. exact Q. }
      split; [exact Te'|]. destruct (Tx_tree g Hg root F' D' R' Te') as (W' & T'). apply (tree_eq g Hg W' W _ _ T' TW). intros (a & b) I. apply canon_In in I as (u & p & I & <-). apply tedges_In in I as (Iu & Nu & ->). apply canon_ordered. apply In'; assumption.
  Qed.
End Fathers.
