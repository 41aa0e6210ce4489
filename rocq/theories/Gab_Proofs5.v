(** * Proofs: the whole search for an exchange *)
From Coq Require Import ZArith List Bool Lia Permutation Sorting.Sorted.
From Verif Require Import Base Py Lists Dict Graph_Model Graph_Spec Graph_Proofs Graph_Proofs2 UF_Model UF_Spec UF_Proofs2 Trav_Model Trav_Spec Trav_Proofs Paths_Model MST_Model MST_Spec MST_Proofs MST_Proofs2
  Gab_Spec Gab_Model Gab_Proofs Gab_Proofs2 Gab_Proofs3 Gab_Proofs4.
Import ListNotations.
Open Scope Z_scope.

(** ** The sorted edges *)
Lemma insert_key_perm key x l : Permutation (insert_key key x l) (x :: l).
Proof. induction l as [|y l IH]; cbn; [reflexivity|]. destruct (key x <=? key y); [reflexivity|]. rewrite IH. apply perm_swap. Qed.
Lemma sort_key_perm key l : Permutation (sort_key key l) l.
Proof. induction l as [|x l IH]; cbn; [constructor|]. rewrite insert_key_perm. constructor. exact IH. Qed.
Lemma sort_key_sorted key l : StronglySorted (fun a b => key a <= key b) (sort_key key l).
Proof.
  induction l as [|x l IH]; cbn; [constructor|]. fold (sort_key key l). revert IH. generalize (sort_key key l) as s. intros s S. induction S as [|y s S IH Fy]; cbn; [constructor; constructor|].
  destruct (Z.leb_spec (key x) (key y)) as [L|L].
  - constructor; [constructor; assumption|]. constructor; [exact L|]. rewrite Forall_forall in *. intros z Hz. specialize (Fy z Hz). lia.
  - constructor; [exact IH|]. rewrite Forall_forall in *. intros z Hz. apply (Permutation_in _ (insert_key_perm key x s)) in Hz. destruct Hz as [<-|Hz]; [lia|apply Fy, Hz].
Qed.

Lemma ninv_keys K K' s c : (forall x, In x K <-> In x K') -> ninv K s c -> ninv K' s c.
Proof. intros E (H1 & H2). split; [intros x; rewrite H1; apply E|]. intros x Hx. apply H2, E, Hx. Qed.

Lemma mark_In ex : forall m e, In e (fold_left (fun m e => e :: pair_discard e m) ex m) <-> In e ex \/ In e m.
Proof.
  induction ex as [|a ex IH]; intros m e; cbn [fold_left]; [cbn; tauto|]. rewrite IH. cbn [In]. rewrite pair_discard_In. split; [tauto|]. intros [[H|H]|H]; auto. destruct (pair_eqb a e) eqn:Q; [apply pair_eqb_eq in Q; auto|]. right. right. split; [exact H|]. intros ->. assert (pair_eqb a a = true) by (apply pair_eqb_eq; reflexivity). congruence.
Qed.

Section Find.
  Context (g : graph) (root : Z).
  Hypothesis Hg : undirected g.
  Notation V := (map fst g).
  Context (F : Z -> Z) (D : Z -> nat) (father : prevs).
  Hypothesis R : rooted V root F D.
  Hypothesis Fo : fok g father F.
  Hypothesis Te : forall v, In v V -> v <> root -> edge g v (F v).
  Notation top := (top F D).
  Notation INb := (INb root F).

  Lemma topn_ext K K' : (forall z, In z V -> K z = K' z) -> forall n u, In u V -> topn F K n u = topn F K' n u.
  Proof using R. intros E. induction n as [|n IH]; intros u I; cbn [topn]; rewrite (E u I); [reflexivity|]. destruct (K' u); [|reflexivity]. apply IH. apply (HF V root F D R u I). Qed.

  Lemma include_ok IN : (forall a b, In (a, b) IN -> In (ordered a b) (Tx g root F)) -> NoDup (norm IN) ->
    exists X, foldM (include_step father) IN (nuf_init (vertices g)) = Ret X /\ ninv V X (top (INb IN)).
  Proof using R Fo.
    intros HI N. destruct (foldM_inv (include_step father) (fun pre X => ninv V X (top (INb pre))) IN (nuf_init (vertices g))) as (X & E & HX).
    - apply (ninv_ext V _ (fun x => x)); [intros x Ix; symmetry; apply top_free; unfold Gab_Proofs3.INb; cbn; apply andb_false_r|]. apply (ninv_keys (vertices g)); [|apply ninv_init]. intros x. unfold vertices. split; intros I; [apply (Permutation_in _ (zsort_perm _) I)|apply (Permutation_in _ (Permutation_sym (zsort_perm _)) I)].
    - intros pre (x & y) post X Es HX. pose proof Fo as (_ & _ & Fd). unfold include_step.
      assert (Child : exists c, In c V /\ c <> root /\ ordered c (F c) = ordered x y /\ In x V /\ (if y =? F x then (x, y) else (y, x)) = (c, F c)).
      { destruct (proj1 (Tx_In g root F x y) (HI x y ltac:(rewrite Es; apply in_elt))) as [(Ix & Nx & ->)|(Iy & Ny & ->)].
        - exists x. rewrite Z.eqb_refl. auto.
        - exists y. pose proof (HF V root F D R y Iy) as IF. pose proof (HD V root F D R y Iy Ny) as Dy. split; [exact Iy|]. split; [exact Ny|]. split; [apply ordered_sym|]. split; [exact IF|]. destruct (Z.eqb_spec y (F (F y))) as [Q|Q]; [exfalso|reflexivity]. destruct (Z.eq_dec (F y) root) as [E|E]; [rewrite E, (Fr V root F D R) in Q; congruence|]. pose proof (HD V root F D R (F y) IF E) as Q'. rewrite <- Q in Q'. lia. }
      destruct Child as (c & Ic & Nc & Oc & Ix & Ec). unfold dgetM at 1. rewrite (Fd x Ix). cbn [bind]. rewrite Ec.
      assert (Kr : INb pre root = false) by (unfold Gab_Proofs3.INb; rewrite Z.eqb_refl; reflexivity).
      assert (Kc : INb pre c = false). { destruct (INb pre c) eqn:Q; [exfalso|reflexivity]. apply (INb_In g root F pre c Ic) in Q as (_ & a & b & I & E). unfold norm in N. rewrite Es, map_app in N. cbn [map fst snd] in N. apply NoDup_remove_2 in N. apply N. apply in_or_app. left. apply in_map_iff. exists (a, b). split; [|exact I]. cbn [fst snd]. congruence. }
      pose proof (HF V root F D R c Ic) as IF. destruct (nfind_ok V X (top (INb pre)) (F c) HX IF) as (X1 & E1 & N1). rewrite E1. cbn [bind]. destruct (top_spec V root F D R (INb pre) Kr _ (F c) eq_refl IF) as (T1 & _).
      destruct (nunion_ok V X1 (top (INb pre)) c (top (INb pre) (F c)) (top (INb pre) (F c)) N1) as (X2 & E2 & N2); [intros E; apply (anc_above V root F D R c Ic Nc); rewrite E at 1; exact T1|exists c; split; [exact Ic|apply top_free; exact Kc]|exists (F c); auto|auto|].
      exists X2. split; [exact E2|]. apply (ninv_ext V X2 _ _) with (2 := N2). intros u Iu. rewrite <- (top_add V root F D R (INb pre) c Kr Ic Nc Kc (D u) u eq_refl Iu). apply topn_ext; [|exact Iu]. intros u' Iu'. apply eq_true_iff_eq. rewrite orb_true_iff, Z.eqb_eq, !(INb_In g root F _ u' Iu'). split.
      + intros [->|(Nu & a & b & I & E)]; [split; [exact Nc|]; exists x, y; split; [apply in_or_app; right; left; reflexivity|congruence]|]. split; [exact Nu|]. exists a, b. split; [apply in_or_app; left; exact I|exact E].
      + intros (Nu & a & b & I & E). apply in_app_or in I as [I|[I|[]]]; [right; split; [exact Nu|]; eauto|]. injection I as <- <-. rewrite <- Oc in E. apply ordered_eq in E as [(-> & _)|(E1' & E2')]; [left; reflexivity|]. pose proof (HD V root F D R c Ic Nc). pose proof (HD V root F D R u' Iu' Nu). rewrite E2' in *. rewrite <- E1' in *. lia.
    - exists X. split; assumption.
  Qed.

  Context (edges : list (Z * Z)).
  Hypothesis Ed : forall x y, In (x, y) edges -> In x V /\ In y V /\ edge g x y /\ x <= y.
  Hypothesis EdN : NoDup edges.
  Hypothesis EdS : StronglySorted (fun a b => arc_key g a <= arc_key g b) edges.

  (** The best exchange. *)
  Definition best_spec (IN OUT : list (Z * Z)) (b : best) : Prop :=
    (forall f z, ok_pair (map fst g) root F D edges OUT (INb IN) f z -> best_le b (cand g F f z)) /\
    (b = (None, None, None) \/ exists f z, ok_pair (map fst g) root F D edges OUT (INb IN) f z /\ b = (Some (cand g F f z), Some (z, F z), Some f)).

  Lemma find_exchange_ok IN OUT : (forall a b, In (a, b) IN -> In (ordered a b) (Tx g root F)) -> NoDup (norm IN) ->
    (forall e, In e OUT -> In e edges \/ In (swap e) edges) ->
    exists b, find_exchange g edges father IN OUT [] = Ret (b, []) /\ best_spec IN OUT b.
  Proof using R Fo Te Ed EdN EdS Hg.
    intros HI N HO. unfold find_exchange. destruct (include_ok IN HI N) as (X & E & HX). rewrite E. cbn [bind]. set (marked := fold_left _ OUT []).
    destruct (edges_loop_ok g (map fst g) root F D father (fun _ H => H) R (proj2 (proj2 Fo)) (fok_length g Hg father F Fo) Te edges Ed EdN EdS OUT (INb IN) X marked) as (X' & b & E' & _ & H1 & H2); [unfold Gab_Proofs3.INb; rewrite Z.eqb_refl; reflexivity|intros u Ou Iu; contradiction|exact HX|intros e; unfold marked; rewrite mark_In; cbn [In]; tauto|exact HO|].
    rewrite E'. cbn [bind]. exists b. split; [reflexivity|]. split; assumption.
  Qed.
End Find.
