(** * Kruskal's algorithm *)
From Coq Require Import ZArith List Lia Bool Permutation Sorting.Sorted.
From Verif Require Import Base Py Dict Lists2 UF_Model UF_Spec UF_Proofs Graph_Model Graph_Spec Graph_Proofs Trav_Model Trav_Spec Trav_Proofs Trav_Proofs2
  Paths_Model Paths_Proofs2 MST_Model MST_Spec MST_Proofs.
Import ListNotations.
Open Scope Z_scope.

Lemma warc_1 x y : warc_ltb x y = true -> fst (fst x) <= fst (fst y).
Proof. destruct x as [[w u] p], y as [[w' u'] p']. cbn. rewrite orb_true_iff, andb_true_iff, Z.ltb_lt, Z.eqb_eq. lia. Qed.
Lemma warc_2 x y : warc_ltb x y = false -> fst (fst y) <= fst (fst x).
Proof. destruct x as [[w u] p], y as [[w' u'] p']. cbn. rewrite orb_false_iff, Z.ltb_ge. lia. Qed.

Lemma warcs_In g w u v : undirected g -> In (w, u, v) (warcs g) <-> weight g u v = Some w.
Proof.
  intros Hg. unfold warcs, weight. rewrite in_flat_map. split.
  - intros ([u' a] & Ha & I). apply in_map_iff in I as ([v' w'] & E & I). injection E as -> -> ->.
    destruct Hg as (N & Na & _). rewrite (dget_In _ _ _ N Ha). apply dget_In; [apply (Na u a Ha)|exact I].
  - destruct (dget g u) as [a|] eqn:Ea; [|discriminate]. intros E. exists (u, a). split; [apply dget_Some_In, Ea|].
    apply in_map_iff. exists (v, w). split; [reflexivity|apply dget_Some_In, E].
Qed.

Lemma classes_pos c V : V <> [] -> (1 <= classes c V)%nat.
Proof.
  intros H. destruct V as [|v V]; [congruence|]. unfold classes.
  assert (I : In (c v) (nodup Z.eq_dec (map c (v :: V)))) by (apply nodup_In; left; reflexivity).
  destruct (nodup Z.eq_dec (map c (v :: V))); [destruct I|cbn; lia].
Qed.

Section Kruskal.
  Context (g : graph) (K : list Z).
  Hypothesis Hg : undirected g.
  Notation V := (dkeys g).
  Hypothesis HK : Permutation K V.

  Lemma V_nodup : NoDup V. Proof. destruct Hg as (N & _). exact N. Qed.
  Lemma wt_in u v w : weight g u v = Some w -> In u V /\ In v V.
  Proof.
    intros H. assert (E : edge g u v) by (exists w; exact H). destruct Hg as (_ & _ & C & Sy). split; [|apply (C u v E)].
    apply (C v u). exists w. rewrite <- Sy. exact H.
  Qed.
  Lemma linked_reach A u v : (forall p q, In (p, q) A -> edge g p q) -> linked A u v -> u = v \/ reachable g u v.
  Proof.
    intros HA L. induction L as [u v I|u|u v _ IH|u v w _ IH1 _ IH2].
    - right. exists 1%nat. apply (walk_S g u 0 u v); [constructor|apply HA, I].
    - left. reflexivity.
    - destruct IH as [->|IH]; [left; reflexivity|right; apply (reach_sym g Hg), IH].
    - destruct IH1 as [->|IH1]; [exact IH2|]. destruct IH2 as [<-|IH2]; [right; exact IH1|]. right. eapply reach_trans; eassumption.
  Qed.

  (** The state of the loop; A is the list of the edges found, as they were taken from the heap. *)
  Definition kinv (need : Z) (h : list (Z * Z * Z)) (X : uf) (total : Z) (A : list (Z * Z)) : Prop :=
    (exists found, uinv K X (cls A) found) /\
    (forall u v, In (u, v) A -> edge g u v) /\ total_weight g A total /\
    Z.of_nat (length V) - 1 - Z.of_nat (length A) = need /\
    (classes (cls A) V + length A = length V)%nat /\
    promising g V A /\
    (forall w u v, In (w, u, v) h -> weight g u v = Some w) /\
    (forall w u v, weight g u v = Some w -> In (w, u, v) h \/ linked A u v).

  Lemma reach_linked A u v : (forall w u v, weight g u v = Some w -> linked A u v) -> reachable g u v -> linked A u v.
  Proof.
    intros H (n & Wk). induction Wk as [|n p q _ IH (w & Hw)]; [apply linked_refl|]. eapply linked_trans; [exact IH|eapply H, Hw].
  Qed.

  Lemma tw_snoc A W u v w : total_weight g A W -> weight g u v = Some w -> total_weight g (A ++ [(u, v)]) (W + w).
  Proof.
    intros H1 H2. apply tw_app. exists W, w. split; [exact H1|]. split; [|reflexivity].
    replace w with (w + 0) by lia. constructor; [exact H2|constructor].
  Qed.

  Lemma kruskal_loop_ok : forall fuel need h X total A, kinv need h X total A -> (length h <= fuel)%nat -> V <> [] ->
    (connected g -> exists T W, kruskal_loop fuel need h X total (norm A) = Ret (W, norm T) /\ minimum_spanning_tree g V T W) /\
    (~ connected g -> kruskal_loop fuel need h X total (norm A) = Raise IndexError).
  Proof.
    induction fuel as [|fuel IH]; intros need h X total A (Hu & HA & Ht & Hn & Hc & Hp & Hh & Hh') Hf Hne.
    all: assert (Done : need <= 0 -> kruskal_loop 0 need h X total (norm A) = Ret (total, norm A) /\ connected g /\ minimum_spanning_tree g V A total).
    1,3: intros Hle; split; [cbn [kruskal_loop]; rewrite (proj2 (Z.leb_le need 0) Hle); reflexivity|];
      assert (Lk : forall u v, In u V -> In v V -> linked A u v) by
        (intros u v Hu1 Hv1; apply cls_linked; apply (classes_one (cls A) V); [lia|exact Hu1|exact Hv1]);
      split; [intros u v Hu1 Hv1; destruct (linked_reach A u v HA (Lk u v Hu1 Hv1)) as [->|R]; [exists O; apply walk_0|exact R]|];
      apply (promising_minimum g V A total Hp); [|exact Ht]; split; [|split; [exact Lk|]];
      [intros u v I; pose proof (HA u v I) as (w & Hw); destruct (wt_in u v w Hw); split; [assumption|split; [assumption|exists w; exact Hw]]|];
      pose proof (classes_pos (cls A) V Hne); lia.
    all: assert (Empty : 0 < need -> h = [] -> ~ connected g).
    1,3: intros Hlt -> Hcon; assert (All : forall w u v, weight g u v = Some w -> linked A u v) by
        (intros w u v Hw; destruct (Hh' w u v Hw) as [[]|L]; exact L);
      pose proof (linked_lower A V V_nodup) as L; enough (length V <= S (length A))%nat by lia; apply L;
      intros u v Hu1 Hv1; apply reach_linked; [exact All|apply Hcon; assumption].
    - destruct h as [|x h]; [|cbn in Hf; lia]. destruct (Z.le_gt_cases need 0) as [L|L].
      + destruct (Done L) as (E & Cn & M). split; [|contradiction]. intros _. eauto.
      + cbn [kruskal_loop]. rewrite (proj2 (Z.leb_gt need 0)) by lia. pose proof (Empty ltac:(lia) eq_refl). split; [contradiction|reflexivity].
    - destruct (Z.le_gt_cases need 0) as [L|L].
      + destruct (Done L) as (E & Cn & M). assert (E' : kruskal_loop (S fuel) need h X total (norm A) = Ret (total, norm A)).
        { cbn [kruskal_loop]. rewrite (proj2 (Z.leb_le need 0) L). reflexivity. }
        rewrite E'. split; [|contradiction]. intros _. eauto.
      + cbn [kruskal_loop]. rewrite (proj2 (Z.leb_gt need 0)) by lia. destruct h as [|x h].
        { pose proof (Empty ltac:(lia) eq_refl). split; [contradiction|reflexivity]. }
        clear Done Empty. destruct (pop_min warc_ltb x h) as [[[w u] v] h'] eqn:Ep.
        destruct (pop_min_ok warc_ltb (fun x => fst (fst x)) warc_1 warc_2 _ _ _ _ Ep) as [P M].
        assert (Hw : weight g u v = Some w) by (apply Hh, (Permutation_in _ (Permutation_sym P)); left; reflexivity).
        destruct (wt_in u v w Hw) as [Vu Vv].
        assert (Ku : In u K) by (apply (Permutation_in _ (Permutation_sym HK)), Vu).
        assert (Kv : In v K) by (apply (Permutation_in _ (Permutation_sym HK)), Vv).
        destruct Hu as (found & Hu). destruct (find_ok K X (cls A) found u Hu Ku) as (X1 & -> & Hu1). cbn [bind].
        destruct (find_ok K X1 (cls A) _ v Hu1 Kv) as (X2 & -> & Hu2). cbn [bind].
        assert (Hf' : (length h' <= fuel)%nat) by (pose proof (Permutation_length P) as Lp; cbn in Lp, Hf; lia).
        destruct (Z.eqb_spec (cls A u) (cls A v)) as [E|E].
        * apply IH; [|exact Hf'|exact Hne]. split; [eauto|]. repeat (split; [assumption|]). split.
          -- intros w' u' v' I. apply Hh, (Permutation_in _ (Permutation_sym P)). right. exact I.
          -- intros w' u' v' H. destruct (Hh' w' u' v' H) as [I|I]; [|auto].
             apply (Permutation_in _ P) in I. destruct I as [I|I]; [|auto]. injection I as <- <- <-. right. apply cls_linked, E.
        * destruct (union_ok K X2 (cls A) _ u v Hu2 Ku Kv) as (X3 & -> & Hu3); [right; right; left; reflexivity|right; left; reflexivity|]. cbn [bind].
          replace (norm A ++ [ordered u v]) with (norm (A ++ [(u, v)])) by (unfold norm; rewrite map_app; reflexivity).
          apply IH; [|exact Hf'|exact Hne]. split; [exists []; rewrite cls_snoc; exact Hu3|].
          split; [intros p q I; apply in_app_or in I as [I|[I|[]]]; [apply HA, I|injection I as <- <-; exists w; exact Hw]|].
          split; [apply tw_snoc; assumption|]. rewrite app_length. cbn [length]. split; [lia|].
          split; [rewrite cls_snoc; pose proof (classes_join_upper (cls A) u v V Vu Vv E); pose proof (classes_join_lower (cls A) u v V); lia|].
          split.
          -- apply (blue g V Hg A (fun z => cls A z =? cls A u) u v w Hp); try assumption.
             ++ intros p q I. rewrite (proj2 (cls_linked A p q)) by (apply linked_edge, I). reflexivity.
             ++ apply Z.eqb_refl.
             ++ apply Z.eqb_neq. congruence.
             ++ intros p q c' _ _ Hpq S1 S2. apply Z.eqb_eq in S1. apply Z.eqb_neq in S2.
                destruct (Hh' c' p q Hpq) as [I|I]; [|exfalso; apply cls_linked in I; congruence].
                apply (M (c', p, q) I).
          -- split.
             ++ intros w' u' v' I. apply Hh, (Permutation_in _ (Permutation_sym P)). right. exact I.
             ++ intros w' u' v' H. destruct (Hh' w' u' v' H) as [I|I].
                ** apply (Permutation_in _ P) in I. destruct I as [I|I]; [|auto]. injection I as <- <- <-.
                   right. apply linked_edge, in_or_app. right. left. reflexivity.
                ** right. apply (linked_sub A); [intros e Ie; apply in_or_app; auto|exact I].
  Qed.

  Lemma kruskal_start : V <> [] -> 
    (connected g -> exists T W, kruskal_loop (length (warcs g)) (Z.of_nat (length V) - 1) (warcs g) (uf_init K) 0 [] = Ret (W, norm T) /\ minimum_spanning_tree g V T W) /\
    (~ connected g -> kruskal_loop (length (warcs g)) (Z.of_nat (length V) - 1) (warcs g) (uf_init K) 0 [] = Raise IndexError).
  Proof.
    intros Hne. apply (kruskal_loop_ok (length (warcs g)) (Z.of_nat (length V) - 1) (warcs g) (uf_init K) 0 []); [|lia|exact Hne].
    split; [exists []; apply uinv_init|]. split; [intros u v []|]. split; [constructor|]. split; [cbn; lia|].
    split.
    { unfold classes. replace (map (cls []) V) with V by (symmetry; apply map_id). rewrite nodup_fixed_point by apply V_nodup. cbn. lia. }
    split; [apply promising_nil|]. split.
    - intros w u v I. apply warcs_In in I; assumption.
    - intros w u v I. left. apply warcs_In; assumption.
  Qed.
End Kruskal.
