(** * The layout of the heap does not matter *)
From Coq Require Import ZArith List Lia Bool Permutation.
From Verif Require Import Base Py Dict Gen Sums UF_Model Graph_Model Trav_Model Paths_Model MST_Model Chart_Model Heapq_Spec Heapq_Model.
Import ListNotations.
Open Scope Z_scope.

(** ** Related outcomes *)
Definition orel {A B} (R : A -> B -> Prop) (x : outcome A) (y : outcome B) : Prop :=
  match x, y with Ret a, Ret b => R a b | Raise e, Raise f => e = f | Diverge, Diverge => True | _, _ => False end.
Definition srel {A B C D} (R : A -> B -> Prop) (P : C -> D -> Prop) (x : A + C) (y : B + D) : Prop :=
  match x, y with inl a, inl b => R a b | inr c, inr d => P c d | _, _ => False end.

Lemma foldM_rel {A S T} (R : S -> T -> Prop) (f : S -> A -> outcome S) (f' : T -> A -> outcome T) :
  (forall s t x, R s t -> orel R (f s x) (f' t x)) -> forall l s t, R s t -> orel R (foldM f l s) (foldM f' l t).
Proof.
  intros H. induction l as [|x l IH]; intros s t E; [exact E|]. cbn [foldM]. pose proof (H s t x E) as K. destruct (f s x), (f' t x); cbn in K |- *; try contradiction; [apply IH, K|exact K|exact K].
Qed.

Lemma run_rel {S T A B} (R : S -> T -> Prop) (P : A -> B -> Prop) (f : S -> S + outcome A) (f' : T -> T + outcome B) :
  (forall s t, R s t -> srel R (orel P) (f s) (f' t)) -> forall n s t, R s t -> orel P (run f n s) (run f' n t).
Proof.
  intros H. assert (W : forall n s t, R s t -> srel R (orel P) (wl f n s) (wl f' n t)).
  { induction n as [|n IH]; intros s t E; cbn [wl]; [apply H, E|]. pose proof (IH s t E) as K. destruct (wl f n s), (wl f' n t); cbn in K |- *; try contradiction; [apply IH, K|exact K]. }
  intros n s t E. unfold run. specialize (W n s t E). destruct (wl f n s), (wl f' n t); cbn in W |- *; try contradiction; [exact I|exact W].
Qed.

Lemma orel_eq {A} (x y : outcome A) : orel eq x y -> x = y.
Proof. destruct x, y; cbn; intros H; try contradiction; congruence. Qed.

(** ** The orders *)
Definition decides {A} (ltb : A -> A -> bool) (less : A -> A -> Prop) : Prop := forall x y, ltb x y = true <-> less x y.
Definition linear {A} (less : A -> A -> Prop) : Prop :=
  (forall x y, less x y -> ~ less y x) /\ (forall x y, ~ less x y -> ~ less y x -> x = y) /\ (forall x y z, ~ less x y -> ~ less y z -> ~ less x z).

Lemma list_ltb_lex x y : list_ltb x y = true <-> lex x y.
Proof.
  revert y. induction x as [|a x IH]; intros [|b y]; cbn; try (split; [discriminate|contradiction]); [tauto|].
  rewrite orb_true_iff, andb_true_iff, Z.ltb_lt, Z.eqb_eq, IH. reflexivity.
Qed.
Lemma pair_less : decides pair_ltb less2.
Proof. intros (a, b) (c, d). unfold pair_ltb, less2. cbn. rewrite orb_true_iff, andb_true_iff, !Z.ltb_lt, Z.eqb_eq. tauto. Qed.
Lemma triple_less : decides triple_ltb less_path.
Proof. intros [[a b] p] [[c d] q]. unfold less_path. cbn. rewrite orb_true_iff, andb_true_iff, orb_true_iff, andb_true_iff, !Z.ltb_lt, !Z.eqb_eq, list_ltb_lex. tauto. Qed.
Lemma warc_less : decides warc_ltb less3.
Proof. intros [[a b] p] [[c d] q]. unfold less3. cbn. rewrite orb_true_iff, andb_true_iff, orb_true_iff, andb_true_iff, !Z.ltb_lt, !Z.eqb_eq. tauto. Qed.
Lemma entry_less : decides entry_ltb less3.
Proof. intros [[a b] p] [[c d] q]. unfold less3. cbn. rewrite orb_true_iff, andb_true_iff, orb_true_iff, andb_true_iff, !Z.ltb_lt, !Z.eqb_eq. tauto. Qed.

Lemma lex_linear : linear lex.
Proof.
  split; [|split].
  - induction x as [|a x IH]; intros [|b y] H1 H2; cbn in *; try tauto. destruct H1 as [H1|(E1 & H1)], H2 as [H2|(E2 & H2)]; try lia. exact (IH y H1 H2).
  - induction x as [|a x IH]; intros [|b y] H1 H2; cbn in *; try reflexivity; try tauto.
    assert (a = b) by (destruct (Z.lt_trichotomy a b) as [L|[E|L]]; [|exact E|]; exfalso; tauto). subst b. f_equal. apply IH; intros K; [apply H1|apply H2]; right; auto.
  - induction x as [|a x IH]; intros [|b y] [|c z] H1 H2; cbn in *; try tauto.
    intros [L|(E & L)].
    + assert (b <= a) by (destruct (Z_lt_le_dec a b); [exfalso; tauto|assumption]). assert (c <= b) by (destruct (Z_lt_le_dec b c); [exfalso; tauto|assumption]). lia.
    + subst c. assert (b <= a) by (destruct (Z_lt_le_dec a b); [exfalso; tauto|assumption]). assert (a <= b) by (destruct (Z_lt_le_dec b a); [exfalso; tauto|assumption]). assert (a = b) by lia. subst b.
      apply (IH y z); try (intros K; tauto). exact L.
Qed.
Lemma linear_map {A} (f : A -> list Z) : (forall x y, f x = f y -> x = y) -> linear (fun x y => lex (f x) (f y)).
Proof. intros I. destruct lex_linear as (A0 & A1 & A2). split; [intros x y; apply A0|]. split; [intros x y H1 H2; apply I, A1; assumption|intros x y z; apply A2]. Qed.
Lemma less2_linear : linear less2.
Proof. apply (linear_map (fun x => [fst x; snd x])). intros (a, b) (c, d) E. cbn in E. congruence. Qed.
Lemma less3_linear : linear less3.
Proof. apply (linear_map (fun x : Z * Z * Z => [fst (fst x); snd (fst x); snd x])). intros [[a b] p] [[c d] q] E. cbn in E. congruence. Qed.
Lemma less_path_linear : linear less_path.
Proof. apply (linear_map (fun x : Z * Z * list Z => fst (fst x) :: snd (fst x) :: snd x)). intros [[a b] p] [[c d] q] E. cbn in E. congruence. Qed.

(** ** Taking out a least entry *)
Section Pop.
  Context {A : Type} (ltb : A -> A -> bool) (less : A -> A -> Prop) (valid : list A -> Prop) (Q : heapq A).
  Hypothesis D : decides ltb less.
  Hypothesis L : linear less.
  Hypothesis HQ : heap_ok less valid Q.

  Lemma pop_min_least : forall l x m r, pop_min ltb x l = (m, r) -> Permutation (x :: l) (m :: r) /\ forall y, In y (x :: l) -> ~ less y m.
  Proof using D L.
    destruct L as (L0 & L1 & L2). induction l as [|y l IH]; intros x m r E; cbn [pop_min] in E.
    - injection E as <- <-. split; [reflexivity|]. intros y [<-|[]] K. exact (L0 _ _ K K).
    - destruct (ltb y x) eqn:C.
      + destruct (pop_min ltb y l) as [m' r'] eqn:E'. injection E as <- <-. destruct (IH y m' r' E') as (P & M).
        split; [rewrite P; apply perm_swap|]. intros z [<-|Hz]; [|apply M, Hz]. apply D in C. exact (L2 _ _ _ (L0 _ _ C) (M y (or_introl eq_refl))).
      + destruct (pop_min ltb x l) as [m' r'] eqn:E'. injection E as <- <-. destruct (IH x m' r' E') as (P & M).
        split; [rewrite perm_swap, P; apply perm_swap|]. intros z [<-|[<-|Hz]]; [apply M; left; reflexivity| |apply M; right; exact Hz].
        assert (N : ~ less y x) by (intros K; apply D in K; congruence). exact (L2 _ _ _ N (M x (or_introl eq_refl))).
  Qed.

  Definition same (q h : list A) : Prop := valid q /\ Permutation q h.

  Lemma pop_same q x rest m r : same q (x :: rest) -> pop_min ltb x rest = (m, r) -> exists r', pop Q q = (m, r') /\ same r' r.
  Proof using D L HQ.
    intros (V & P) E. destruct HQ as (_ & _ & Hp & _). destruct L as (L0 & L1 & L2). destruct (pop_min_least _ _ _ _ E) as (P1 & M1). destruct (pop Q q) as (m', r') eqn:E'.
    assert (N : q <> []) by (intros ->; exact (Permutation_nil_cons P)). destruct (Hp q m' r' V N E') as (V' & P' & M').
    assert (Em : m' = m).
    { apply L1.
      - apply M1. eapply Permutation_in; [exact P|]. eapply Permutation_in; [symmetry; exact P'|]. left. reflexivity.
      - assert (I : In m (m' :: r')) by (eapply Permutation_in; [exact P'|]; eapply Permutation_in; [symmetry; exact P|]; eapply Permutation_in; [symmetry; exact P1|]; left; reflexivity).
        destruct I as [<-|I]; [|apply M', I]. intros K. exact (L0 _ _ K K). }
    subst m'. exists r'. split; [reflexivity|]. split; [exact V'|]. apply (Permutation_cons_inv (a := m)). rewrite <- P', P. exact P1.
  Qed.

  Lemma push_same q h x : same q h -> same (push Q q x) (x :: h).
  Proof using HQ. intros (V & P). destruct HQ as (_ & Hp & _). destruct (Hp q x V) as (V' & P'). split; [exact V'|]. rewrite P', P. reflexivity. Qed.
  Lemma one_same x : same [x] [x].
  Proof using HQ. destruct HQ as (H1 & _). split; [apply H1|reflexivity]. Qed.
  Lemma heapify_same l : same (heapify Q l) l.
  Proof using HQ. destruct HQ as (_ & _ & _ & H). exact (H l). Qed.
  Lemma same_length q h : same q h -> length q = length h.
  Proof using. intros (_ & P). apply Permutation_length, P. Qed.
  Lemma same_nil q : same q [] -> q = [].
  Proof using. intros (_ & P). apply Permutation_nil. symmetry. exact P. Qed.
  Lemma same_cons q x l : same q (x :: l) -> exists y q', q = y :: q'.
  Proof using. intros (_ & P). destruct q as [|y q']; [exfalso; exact (Permutation_nil_cons P)|exists y, q'; reflexivity]. Qed.
End Pop.

(** ** dijkstra *)
Section Dijkstra.
  Context (valid : list (Z * Z) -> Prop) (Q : heapq (Z * Z)).
  Hypothesis HQ : heap_ok less2 valid Q.
  Notation sm := (same valid).

  Lemma relax_same u w row d p q h : sm q h ->
    orel (fun x y => fst x = fst y /\ sm (snd x) (snd y))
      (relax (fun h d v => Ret (push Q h (d, v))) u w row (d, p, q)) (relax (fun h d v => Ret ((d, v) :: h)) u w row (d, p, h)).
  Proof using HQ.
    intros E. apply foldM_rel; [|split; [reflexivity|exact E]]. intros [[d1 p1] q1] [[d2 p2] h2] (v, c) (E1 & E2). cbn [fst snd] in E1, E2. injection E1 as <- <-.
    unfold dgetM. destruct (dget d1 v) as [dv|]; cbn [bind]; [|reflexivity]. destruct (ltx (w + c) dv); cbn [bind].
    - split; [reflexivity|]. cbn [snd]. eapply push_same; eassumption.
    - split; [reflexivity|exact E2].
  Qed.

  Lemma dij_same g : forall fuel d p q h vis, sm q h -> hq_dij_loop Q g fuel d p q vis = dij_loop g fuel d p h vis.
  Proof using HQ.
    induction fuel as [|f IH]; intros d p q h vis E; (destruct h as [|x rest]; [apply same_nil in E; subst q; reflexivity|]); pose proof E as E0; apply same_cons in E as (y & q' & ->).
    - reflexivity.
    - cbn [hq_dij_loop dij_loop]. destruct (pop_min pair_ltb x rest) as [[w u] r] eqn:Ep.
      destruct (pop_same _ _ _ _ pair_less less2_linear HQ _ _ _ _ _ E0 Ep) as (r' & -> & Er). destruct (mem u vis); [apply IH, Er|].
      destruct (g_adj g u) as [row|e|]; cbn [bind]; try reflexivity. pose proof (relax_same u w row d p r' r Er) as R.
      destruct (relax _ u w row (d, p, r')) as [[[d1 p1] q1]|e|], (relax _ u w row (d, p, r)) as [[[d2 p2] h2]|e'|]; cbn in R |- *; try contradiction; try congruence.
      destruct R as (R1 & R2). injection R1 as <- <-. apply IH, R2.
  Qed.

  Lemma dijkstra_same g s : hq_dijkstra Q g s = dijkstra g s.
  Proof using HQ. unfold hq_dijkstra, dijkstra. destruct (dmem g s); [|reflexivity]. apply dij_same. eapply one_same; exact HQ. Qed.

  Lemma prim_scan_same u vis row c p q h : sm q h ->
    orel (fun x y => fst x = fst y /\ sm (snd x) (snd y)) (hq_prim_scan Q u vis row (c, p, q)) (prim_scan u vis row (c, p, h)).
  Proof using HQ.
    intros E. apply foldM_rel; [|split; [reflexivity|exact E]]. intros [[d1 p1] q1] [[d2 p2] h2] (v, w) (E1 & E2). cbn [fst snd] in E1, E2. injection E1 as <- <-.
    destruct (mem v vis); [split; [reflexivity|exact E2]|].
    unfold dgetM. destruct (dget d1 v) as [dv|]; cbn [bind]; [|reflexivity]. destruct (ltx w dv).
    - split; [reflexivity|]. cbn [snd]. eapply push_same; eassumption.
    - split; [reflexivity|exact E2].
  Qed.

  Lemma prim_loop_same g : forall fuel c p q h vis, sm q h -> hq_prim_loop Q g fuel c p q vis = prim_loop g fuel c p h vis.
  Proof using HQ.
    induction fuel as [|f IH]; intros c p q h vis E; (destruct h as [|x rest]; [apply same_nil in E; subst q; reflexivity|]); pose proof E as E0; apply same_cons in E as (y & q' & ->).
    - reflexivity.
    - cbn [hq_prim_loop prim_loop]. destruct (pop_min pair_ltb x rest) as [[w u] r] eqn:Ep.
      destruct (pop_same _ _ _ _ pair_less less2_linear HQ _ _ _ _ _ E0 Ep) as (r' & -> & Er). destruct (mem u vis); [apply IH, Er|]. cbv zeta.
      destruct (g_adj g u) as [row|e|]; cbn [bind]; try reflexivity. pose proof (prim_scan_same u (vis ++ [u]) row c p r' r Er) as R.
      destruct (hq_prim_scan Q u (vis ++ [u]) row (c, p, r')) as [[[d1 p1] q1]|e|], (prim_scan u (vis ++ [u]) row (c, p, r)) as [[[d2 p2] h2]|e'|]; cbn in R |- *; try contradiction; try congruence.
      destruct R as (R1 & R2). injection R1 as <- <-. apply IH, R2.
  Qed.

  Lemma prim_same g root : hq_prim Q g root = do '(total, edges) <- prim g root; do '(_, previous) <- prim_previous g root; Ret (total, edges, previous).
  Proof using HQ.
    unfold hq_prim, prim, prim_previous, prim_run. destruct (prim_root g root) as [r|e|]; cbn [bind]; try reflexivity.
    rewrite (prim_loop_same g _ _ _ [(0, r)] [(0, r)] []) by (eapply one_same; exact HQ). destruct (prim_loop _ _ _ _ _ _) as [p|e|]; cbn [bind]; try reflexivity.
    destruct (prim_edges g p) as [(t, l)|e|]; reflexivity.
  Qed.
End Dijkstra.

(** ** dijkstra_iterator *)
Section Iterator.
  Context (valid : list (Z * Z * list Z) -> Prop) (Q : heapq (Z * Z * list Z)).
  Hypothesis HQ : heap_ok less_path valid Q.
  Notation sm := (same valid).

  Lemma it_relax_same w path row d q h : sm q h ->
    orel (fun x y => fst x = fst y /\ sm (snd x) (snd y)) (hq_it_relax Q w path row (d, q)) (it_relax w path row (d, h)).
  Proof using HQ.
    intros E. apply foldM_rel; [|split; [reflexivity|exact E]]. intros [d1 q1] [d2 h2] (v, c) (E1 & E2). cbn [fst snd] in E1, E2. subst d2.
    unfold dgetM. destruct (dget d1 v) as [dv|]; cbn [bind]; [|reflexivity]. destruct (ltx (w + c) dv).
    - split; [reflexivity|]. cbn [snd]. eapply push_same; eassumption.
    - split; [reflexivity|exact E2].
  Qed.

  Lemma it_pop_same g : forall fuel d q h vis, sm q h ->
    orel (fun x y => fst x = fst y /\ (fst x = None \/ fst (fst (snd x)) = fst (fst (snd y)) /\ snd (snd x) = snd (snd y) /\ sm (snd (fst (snd x))) (snd (fst (snd y)))))
      (hq_it_pop Q g fuel d q vis) (it_pop g fuel d h vis).
  Proof using HQ.
    induction fuel as [|f IH]; intros d q h vis E; (destruct h as [|x rest]; [apply same_nil in E; subst q; cbn; tauto|]); pose proof E as E0; apply same_cons in E as (y & q' & ->).
    - exact I.
    - cbn [hq_it_pop it_pop]. destruct (pop_min triple_ltb x rest) as [[[w u] path] r] eqn:Ep.
      destruct (pop_same _ _ _ _ triple_less less_path_linear HQ _ _ _ _ _ E0 Ep) as (r' & -> & Er). destruct (mem u vis); [apply IH, Er|].
      destruct (g_adj g u) as [row|e|]; cbn [bind]; [|reflexivity|exact I]. pose proof (it_relax_same w path row d r' r Er) as R.
      destruct (hq_it_relax Q w path row (d, r')) as [[d1 q1]|e|], (it_relax w path row (d, r)) as [[d2 h2]|e'|]; cbn in R |- *; try contradiction; [|exact R|exact I].
      split; [reflexivity|]. right. destruct R as (R1 & R2). auto.
  Qed.

  Lemma it_loop_same g : forall fuel d q h vis, sm q h -> hq_it_loop Q g fuel (d, q, vis) = it_loop g fuel (d, h, vis).
  Proof using HQ.
    induction fuel as [|f IH]; intros d q h vis E; [reflexivity|]. cbn [hq_it_loop it_loop]. unfold it_next. pose proof (it_pop_same g (length h) d q h vis E) as R. rewrite (same_length _ _ _ E).
    destruct (hq_it_pop Q g (length h) d q vis) as [[[x|] [[d1 q1] v1]]|e|], (it_pop g (length h) d h vis) as [[[y|] [[d2 h2] v2]]|e'|]; cbn in R; try contradiction; try (destruct R as (R & _); discriminate); try congruence; try reflexivity.
    destruct R as (R0 & [R1|(R1 & R2 & R3)]); [discriminate|]. injection R0 as <-. subst d2 v2. rewrite (IH _ _ _ _ R3). reflexivity.
  Qed.

  Lemma iterator_same g s fuel : hq_dijkstra_iterator Q g s fuel = dijkstra_iterator g s fuel.
  Proof using HQ. unfold hq_dijkstra_iterator, dijkstra_iterator. destruct (dmem g s); [|reflexivity]. apply it_loop_same. eapply one_same; exact HQ. Qed.
End Iterator.

(** ** kruskal and chartres *)
Section Triples.
  Context (valid : list (Z * Z * Z) -> Prop) (Q : heapq (Z * Z * Z)).
  Hypothesis HQ : heap_ok less3 valid Q.
  Notation sm := (same valid).

  Lemma kruskal_loop_same : forall fuel need q h X total tree, sm q h -> hq_kruskal_loop Q fuel need q X total tree = kruskal_loop fuel need h X total tree.
  Proof using HQ.
    induction fuel as [|f IH]; intros need q h X total tree E; cbn [hq_kruskal_loop kruskal_loop]; (destruct (need <=? 0); [reflexivity|]); (destruct h as [|x rest]; [apply same_nil in E; subst q; reflexivity|]); pose proof E as E0; apply same_cons in E as (y & q' & ->).
    - reflexivity.
    - destruct (pop_min warc_ltb x rest) as [[[w u] v] r] eqn:Ep. destruct (pop_same _ _ _ _ warc_less less3_linear HQ _ _ _ _ _ E0 Ep) as (r' & -> & Er).
      destruct (uf_find X u) as [(a, X1)|e|]; cbn [bind]; try reflexivity. destruct (uf_find X1 v) as [(b, X2)|e|]; cbn [bind]; try reflexivity.
      destruct (a =? b); [apply IH, Er|]. destruct (uf_union X2 u v) as [X3|e|]; cbn [bind]; try reflexivity. apply IH, Er.
  Qed.
  Lemma kruskal_same ord g : hq_kruskal Q ord g = kruskal ord g.
  Proof using HQ. unfold hq_kruskal, kruskal. rewrite (kruskal_loop_same _ _ _ (warcs g)); [reflexivity|]. eapply heapify_same; exact HQ. Qed.

  Lemma zsum_perm (f : Z * Z * Z -> Z) l l' : Permutation l l' -> zsum (map f l) = zsum (map f l').
  Proof using. induction 1; cbn [map]; rewrite ?zsum_cons in *; lia. Qed.

  Definition ph {B} (x y : B * list (Z * Z * Z)) : Prop := fst x = fst y /\ sm (snd x) (snd y).
  Lemma pop_loop_same c q0 q h : sm q h -> orel ph (hq_pop_loop Q c q0 q) (pop_loop c q0 h).
  Proof using HQ.
    intros E. unfold hq_pop_loop, pop_loop. replace (pop_fuel c q) with (pop_fuel c h) by (unfold pop_fuel; rewrite (zsum_perm _ q h (proj2 E)); reflexivity).
    apply run_rel with (R := ph); [|split; [reflexivity|exact E]]. intros (a, l) (b, k) (E1 & E2). cbn [fst snd] in E1, E2. subst b. cbn [hq_pop_step pop_step].
    destruct (a <? c); [|cbn; split; [reflexivity|exact E2]]. destruct k as [|x rest]; [apply same_nil in E2; subst l; reflexivity|].
    pose proof E2 as E0. apply same_cons in E2 as (y & l' & ->). destruct (pop_min entry_ltb x rest) as [[[u v] w] r] eqn:Ep. destruct (pop_same _ _ _ _ entry_less less3_linear HQ _ _ _ _ _ E0 Ep) as (r' & -> & Er).
    cbn. split; [reflexivity|]. cbn [snd]. eapply push_same; eassumption.
  Qed.

  Lemma push_prime_same primes c size t q h : sm q h -> orel ph (hq_push_prime Q primes c size t q) (push_prime primes c size t h).
  Proof using HQ.
    intros E. unfold hq_push_prime, push_prime. destruct (c =? t); [|split; [reflexivity|exact E]]. destruct (pyget primes (size + 1 + 2)) as [u|e|]; cbn [bind]; [|reflexivity|exact I]. cbv zeta.
    destruct (u mod 3 =? 2); [split; [reflexivity|eapply push_same; eassumption]|]. destruct (u mod 3 =? 1); (split; [reflexivity|]); [eapply push_same; eassumption|exact E].
  Qed.

  Lemma chartres_same n : hq_chartres Q n = chartres n.
  Proof using HQ.
    apply orel_eq. unfold hq_chartres, chartres. apply run_rel with (R := fun x y => fst x = fst y /\ sm (snd x) (snd y)); [|split; [reflexivity|eapply one_same; exact HQ]].
    intros [[[[[[primes c] diff] size] q0] t] q] [[[[[[primes' c'] diff'] size'] q0'] t'] h] (E1 & E2). cbn [fst snd] in E1, E2. injection E1 as <- <- <- <- <- <-. cbn [hq_round round].
    destruct h as [|x rest]; [apply same_nil in E2; subst q; reflexivity|]. pose proof E2 as E0. apply same_cons in E2 as (y & l' & ->).
    pose proof (pop_loop_same c q0 _ _ E0) as R. destruct (hq_pop_loop Q c q0 (y :: l')) as [(a, k)|e|], (pop_loop c q0 (x :: rest)) as [(b, k')|e'|]; cbn in R; try contradiction; [|cbn; congruence|exact I].
    destruct R as (R1 & R2). cbn [fst snd] in R1, R2. subst b. destruct (n <? c); [reflexivity|]. destruct (add_loop a (primes, c, diff)) as [[[p1 c1] d1]|e|]; [|reflexivity|exact I].
    pose proof (push_prime_same p1 c1 size t _ _ R2) as R3. destruct (hq_push_prime Q p1 c1 size t k) as [[[s1 t1] k1]|e|], (push_prime p1 c1 size t k') as [[[s2 t2] k2]|e'|]; cbn in R3; try contradiction; [|cbn; congruence|exact I].
    destruct R3 as (R3 & R4). cbn [fst snd] in R3, R4. injection R3 as <- <-. cbn. split; [reflexivity|exact R4].
  Qed.
End Triples.
