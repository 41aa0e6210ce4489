(** * The algorithm of Cheriton and Tarjan *)
From Coq Require Import ZArith List Lia Bool Permutation Sorting.Sorted.
From Verif Require Import Base Py Dict Lists Lists2 UF_Model UF_Spec UF_Proofs Graph_Model Graph_Spec Graph_Proofs Trav_Model Trav_Spec Trav_Proofs Trav_Proofs2
  Paths_Model Paths_Proofs2 MST_Model MST_Spec MST_Proofs MST_Proofs2 Cher_Model.
Import ListNotations.
Open Scope Z_scope.

Section Cher.
  Context (g : graph).
  Hypothesis Hg : undirected g.
  Notation V := (dkeys g).
  Notation K := (vertices g).
  Context (pick : list (Z * Z) -> list Z -> Z).
  Hypothesis Hpick : forall t l, l <> [] -> In (pick t l) l.

  Lemma K_perm : Permutation K V.
  Proof using Type. apply zsort_perm. Qed.
  Lemma in_K u : In u K <-> In u V.
  Proof using Type. apply zsort_In. Qed.

  (** The inner loop. *)
  Lemma pop_ok A Tu : forall fuel h X found, uinv K X (cls A) found -> (length h <= fuel)%nat ->
    (forall w u v, In (w, u, v) h -> weight g u v = Some w /\ cls A u = Tu) ->
    (ct_pop fuel Tu h X = Raise TypeError /\ forall w u v, In (w, u, v) h -> linked A u v) \/
    exists w x y h' X' found', ct_pop fuel Tu h X = Ret (x, y, cls A y, h', X') /\ uinv K X' (cls A) found' /\ In x found' /\ In y found' /\
      In (w, x, y) h /\ ~ linked A x y /\ incl h' h /\
      (forall w' p q, In (w', p, q) h -> linked A p q \/ (w <= w' /\ (In (w', p, q) h' \/ (w', p, q) = (w, x, y)))).
  Proof using Hg.
    induction fuel as [|fuel IH]; intros h X found Hu Hf Hh; (destruct h as [|t h]; [left; split; [reflexivity|intros w u v []]|]); [cbn in Hf; lia|].
    cbn [ct_pop]. destruct (pop_min warc_ltb t h) as [[[w x] y] h1] eqn:Ep.
    destruct (pop_min_ok warc_ltb (fun x => fst (fst x)) warc_1 warc_2 _ _ _ _ Ep) as [P M].
    assert (I0 : In (w, x, y) (t :: h)) by (apply (Permutation_in _ (Permutation_sym P)); left; reflexivity).
    destruct (Hh w x y I0) as (Hw & Cx). destruct (wt_in g Hg x y w Hw) as [Vx Vy].
    destruct (find_ok K X (cls A) found x Hu (proj2 (in_K x) Vx)) as (X1 & -> & Hu1). cbn [bind].
    destruct (find_ok K X1 (cls A) _ y Hu1 (proj2 (in_K y) Vy)) as (X2 & -> & Hu2). cbn [bind].
    assert (Sub : incl h1 (t :: h)) by (intros e He; apply (Permutation_in _ (Permutation_sym P)); right; exact He).
    assert (Hf' : (length h1 <= fuel)%nat) by (pose proof (Permutation_length P) as Lp; cbn in Lp, Hf; lia).
    destruct (Z.eqb_spec (cls A x) (cls A y)) as [E|E].
    - assert (L : linked A x y) by (apply cls_linked, E).
      destruct (IH h1 X2 _ Hu2 Hf' (fun w u v I => Hh w u v (Sub _ I))) as [(E1 & H1)|(w' & x' & y' & h' & X' & found' & E1 & U1 & F1 & F2 & I1 & N1 & S1 & H1)].
      + left. split; [exact E1|]. intros w' u v I. apply (Permutation_in _ P) in I as [I|I]; [injection I as <- <- <-; exact L|apply (H1 w'), I].
      + right. exists w', x', y', h', X', found'. split; [exact E1|]. split; [exact U1|]. split; [exact F1|]. split; [exact F2|]. split; [apply Sub, I1|]. split; [exact N1|]. split; [intros e He; apply Sub, S1, He|].
        intros w2 p q I. apply (Permutation_in _ P) in I as [I|I]; [injection I as <- <- <-; left; exact L|apply H1, I].
    - right. exists w, x, y, h1, X2, (y :: x :: found). rewrite Cx, Z.eqb_refl. split; [reflexivity|]. split; [exact Hu2|]. split; [right; left; reflexivity|]. split; [left; reflexivity|]. split; [exact I0|]. split; [rewrite <- cls_linked; exact E|]. split; [exact Sub|].
      intros w' p q I. right. split; [apply (M (w', p, q) I)|]. apply (Permutation_in _ P) in I as [I|I]; [right; symmetry; exact I|left; exact I].
  Qed.

  Definition cinv (PQ : list (Z * list (Z * Z * Z))) (X : uf) (A : list (Z * Z)) : Prop :=
    (exists found, uinv K X (cls A) found) /\
    (forall u v, In (u, v) A -> edge g u v) /\
    (classes (cls A) V + length A = length V)%nat /\
    promising g V A /\
    (NoDup (dkeys PQ) /\ forall r, In r (dkeys PQ) <-> In r V /\ cls A r = r) /\
    (forall r h w u v, dget PQ r = Some h -> In (w, u, v) h -> weight g u v = Some w /\ cls A u = r) /\
    (forall w u v, weight g u v = Some w -> linked A u v \/ exists h, dget PQ (cls A u) = Some h /\ In (w, u, v) h).

  Lemma spans A : (forall u v, In (u, v) A -> edge g u v) -> promising g V A -> (classes (cls A) V + length A = length V)%nat -> (length V <= S (length A))%nat -> V <> [] ->
    connected g /\ exists W, total_weight g A W /\ minimum_spanning_tree g V A W.
  Proof using Hg.
    intros HA Hp Hc Hl Hne. pose proof (classes_pos (cls A) V Hne) as C1.
    assert (Lk : forall u v, In u V -> In v V -> linked A u v) by (intros u v Hu1 Hv1; apply cls_linked; apply (classes_one (cls A) V); [lia|exact Hu1|exact Hv1]).
    split; [intros u v Hu1 Hv1; destruct (linked_reach g Hg A u v HA (Lk u v Hu1 Hv1)) as [->|R]; [exists O; apply walk_0|exact R]|].
    destruct (tw_total g A HA) as (W & HW). exists W. split; [exact HW|]. apply (promising_minimum g V A W Hp); [|exact HW]. split; [|split; [exact Lk|lia]].
    intros u v I. pose proof (HA u v I) as (w & Hw). destruct (wt_in g Hg u v w Hw). split; [assumption|split; [assumption|exists w; exact Hw]].
  Qed.

  (** A proper part of a connected graph has an edge that leaves it. *)
  Lemma leaving A r : connected g -> In r V -> (2 <= classes (cls A) V)%nat -> exists w u v, weight g u v = Some w /\ cls A u = cls A r /\ ~ linked A u v.
  Proof using Hg.
    intros Hc Hr H2.
    destruct (forallb (fun v => cls A v =? cls A r) V) eqn:F.
    - exfalso. rewrite forallb_forall in F. assert (classes (cls A) V <= 1)%nat; [|lia]. apply classes_all. intros u v Hu Hv. apply F in Hu, Hv. apply Z.eqb_eq in Hu, Hv. congruence.
    - assert (exists v, In v V /\ cls A v <> cls A r) as (v & Hv & Nv).
      { clear - F. induction V as [|x l IH]; [discriminate|]. cbn [forallb] in F. apply andb_false_iff in F as [F|F]; [exists x; split; [left; reflexivity|apply Z.eqb_neq, F]|destruct (IH F) as (v & Hv & N); exists v; split; [right; exact Hv|exact N]]. }
      destruct (Hc r v Hr Hv) as (n & Wk). induction Wk as [|n p q Wk IH (w & Hw)]; [congruence|]. destruct (Z.eq_dec (cls A p) (cls A r)) as [E|E].
      + exists w, p, q. split; [exact Hw|]. split; [exact E|]. rewrite <- cls_linked. congruence.
      + apply IH; [apply (wt_in g Hg p q w Hw)|exact E].
  Qed.

  Lemma linked_snoc A x y p q : linked A p q -> linked (A ++ [(x, y)]) p q.
  Proof using Type. apply linked_sub. intros e He. apply in_or_app. left. exact He. Qed.

  Lemma loop_ok : forall need PQ X A, cinv PQ X A -> V <> [] -> (length V = S (length A + need))%nat ->
    (connected g /\ exists T W, ct_loop pick need PQ X (norm A) = Ret (norm T) /\ total_weight g T W /\ minimum_spanning_tree g V T W) \/
    (~ connected g /\ ct_loop pick need PQ X (norm A) = Raise TypeError).
  Proof using All.
    induction need as [|need IH]; intros PQ X A ((found & Hu) & HA & Hc & Hp & (Nk & Ik) & Hh & Hh') Hne Hl.
    - left. destruct (spans A HA Hp Hc ltac:(lia) Hne) as (C & W & HW & M). split; [exact C|]. exists A, W. split; [reflexivity|]. split; [exact HW|exact M].
    - cbn [ct_loop]. assert (Kne : dkeys PQ <> []).
      { intros E. destruct V as [|v l] eqn:EV; [congruence|]. assert (Hv : In v V) by (rewrite EV; left; reflexivity). pose proof (uinv_cls_K K X (cls A) found v Hu (proj2 (in_K v) Hv)) as (H1 & H2).
        assert (I : In (cls A v) (dkeys PQ)); [|rewrite E in I; destruct I]. apply Ik. rewrite <- EV. split; [apply in_K, H1|]. destruct Hu as (U1 & U2 & U3 & U4). destruct (U3 _ H1) as (n & Ch). inversion Ch; subst; [congruence|]. unfold unx in *. rewrite H2 in *. rewrite Z.eqb_refl in *. congruence. }
      destruct (dkeys PQ) as [|k0 ks0] eqn:Ek; [congruence|]. rewrite <- Ek in *. clear Kne. set (u0 := pick (norm A) (dkeys PQ)).
      assert (Iu : In u0 (dkeys PQ)) by (apply Hpick; rewrite Ek; discriminate). destruct (proj1 (Ik u0) Iu) as (Vu & Cu).
      destruct (find_ok K X (cls A) found u0 Hu (proj2 (in_K u0) Vu)) as (X1 & -> & Hu1). cbn [bind]. rewrite Cu. clearbody u0. rename u0 into Tu.
      destruct (proj1 (dget_key PQ Tu) Iu) as (h & Eh). replace (dgetM PQ Tu) with (Ret h) by (unfold dgetM; rewrite Eh; reflexivity). cbn [bind].
      destruct (pop_ok A Tu (length h) h X1 _ Hu1 (le_n _) (fun w u v I => Hh Tu h w u v Eh I)) as [(E1 & H1)|(w & x & y & h' & X2 & found' & E1 & U1 & F1 & F2 & I1 & N1 & S1 & H1)]; rewrite E1; cbn [bind].
      + right. split; [|reflexivity]. intros Cn. destruct (leaving A Tu Cn Vu ltac:(lia)) as (w & u & v & Hw & Cuv & Nl). destruct (Hh' w u v Hw) as [L|(h2 & Eh2 & I2)]; [contradiction|]. rewrite Cuv, Cu, Eh in Eh2. injection Eh2 as <-. apply Nl, (H1 w u v I2).
      + destruct (Hh Tu h w x y Eh I1) as (Hw & Cx). destruct (wt_in g Hg x y w Hw) as [Vx Vy]. assert (Nc : cls A x <> cls A y) by (rewrite cls_linked; exact N1).
        assert (Ty : In (cls A y) V /\ cls A (cls A y) = cls A y). { destruct (uinv_cls_K K X2 (cls A) found' y U1 (proj2 (in_K y) Vy)) as (H2 & H3). split; [apply in_K, H2|]. destruct U1 as (_ & _ & U3 & _). destruct (U3 _ H2) as (n & Ch). inversion Ch; subst; [congruence|]. unfold unx in *. rewrite H3 in *. rewrite Z.eqb_refl in *. congruence. }
        destruct Ty as (VTy & CTy). set (Tv := cls A y) in *.
        destruct (union_ok K X2 (cls A) found' Tu Tv U1 (proj2 (in_K Tu) Vu) (proj2 (in_K Tv) VTy) (or_introl Cu) (or_introl CTy)) as (X3 & -> & U3). cbn [bind].
        assert (Ej : join (cls A) Tu Tv = cls (A ++ [(x, y)])) by (rewrite cls_snoc; unfold join; rewrite Cu, CTy, Cx; reflexivity). rewrite Ej in U3.
        destruct (find_ok K X3 _ [] Tu U3 (proj2 (in_K Tu) Vu)) as (X4 & -> & U4). cbn [bind].
        assert (Cn' : forall z, cls (A ++ [(x, y)]) z = if cls A z =? Tu then Tv else cls A z) by (intros z; rewrite cls_snoc; unfold join; rewrite Cx; reflexivity).
        rewrite (Cn' Tu), Cu, Z.eqb_refl. assert (NTv : Tv <> Tu) by congruence. destruct (Z.eqb_spec Tv Tu) as [|_]; [contradiction|]. cbn [negb].
        assert (IkTv : In Tv (dkeys PQ)) by (apply Ik; auto). destruct (proj1 (dget_key PQ Tv) IkTv) as (hv & Ehv).
        unfold dgetM. rewrite dget_dset_other by congruence. rewrite Ehv, dget_dset_same. cbn [bind].
        replace (norm A ++ [ordered x y]) with (norm (A ++ [(x, y)])) by (unfold norm; rewrite map_app; reflexivity).
        assert (ND2 : NoDup (dkeys (dset (dset PQ Tu h') Tv (hv ++ h')))) by (do 2 apply dset_NoDup; exact Nk).
        assert (Get : forall r, dget (ddel (dset (dset PQ Tu h') Tv (hv ++ h')) Tu) r = if Tu =? r then None else if Tv =? r then Some (hv ++ h') else dget PQ r). { intros r. rewrite dget_ddel by exact ND2. destruct (Z.eqb_spec Tu r) as [|N]; [reflexivity|]. rewrite dget_dset. destruct (Tv =? r); [reflexivity|]. apply dget_dset_other, N. }
        apply IH; [|exact Hne|rewrite app_length; cbn [length]; lia].
        split; [exists [Tu]; exact U4|]. split; [intros p q I; apply in_app_or in I as [I|[I|[]]]; [apply HA, I|injection I as <- <-; exists w; exact Hw]|].
        split; [rewrite cls_snoc, app_length; cbn [length]; pose proof (classes_join_upper (cls A) x y V Vx Vy Nc); pose proof (classes_join_lower (cls A) x y V); lia|].
        split; [|split; [|split]].
        * apply (blue g V Hg A (fun z => cls A z =? cls A x) x y w Hp); try assumption.
          -- intros p q I. rewrite (proj2 (cls_linked A p q)) by (apply linked_edge, I). reflexivity.
          -- apply Z.eqb_refl.
          -- apply Z.eqb_neq. intros E0; apply Nc; symmetry; exact E0.
          -- intros p q c' _ _ Hpq Q1 Q2. apply Z.eqb_eq in Q1. apply Z.eqb_neq in Q2. assert (Nl : ~ linked A p q) by (rewrite <- cls_linked; congruence).
             destruct (Hh' c' p q Hpq) as [L|(h2 & Eh2 & I2)]; [contradiction|]. rewrite Q1, Cx, Eh in Eh2. injection Eh2 as <-. destruct (H1 c' p q I2) as [L|(L & _)]; [contradiction|exact L].
        * split; [apply ddel_NoDup, ND2|]. intros r. rewrite dget_key. setoid_rewrite Get. rewrite Cn'. destruct (Z.eqb_spec Tu r) as [<-|Nr].
          -- rewrite Cu, Z.eqb_refl. split; [intros (? & ?); discriminate|]. intros (_ & E). congruence.
          -- destruct (Z.eqb_spec Tv r) as [<-|Nr2].
             ++ rewrite CTy. destruct (Z.eqb_spec Tv Tu); [contradiction|]. split; [intros _; auto|eauto].
             ++ rewrite <- dget_key, Ik. split; intros (Vr & Cr); (split; [exact Vr|]).
                ** rewrite Cr. destruct (Z.eqb_spec r Tu); [congruence|reflexivity].
                ** destruct (Z.eqb_spec (cls A r) Tu); congruence.
        * intros r h2 w2 u v Eg I2. rewrite Get in Eg. rewrite Cn'. destruct (Z.eqb_spec Tu r) as [|Nr]; [discriminate|]. destruct (Z.eqb_spec Tv r) as [<-|Nr2].
          -- injection Eg as <-. apply in_app_or in I2 as [I2|I2].
             ++ destruct (Hh Tv hv w2 u v Ehv I2) as (Hw2 & Cu2). split; [exact Hw2|]. rewrite Cu2. destruct (Z.eqb_spec Tv Tu); [contradiction|reflexivity].
             ++ destruct (Hh Tu h w2 u v Eh (S1 _ I2)) as (Hw2 & Cu2). split; [exact Hw2|]. rewrite Cu2, Z.eqb_refl. reflexivity.
          -- destruct (Hh r h2 w2 u v Eg I2) as (Hw2 & Cu2). split; [exact Hw2|]. rewrite Cu2. destruct (Z.eqb_spec r Tu) as [->|]; [congruence|reflexivity].
        * intros w2 u v Hw2. rewrite Cn'. destruct (Hh' w2 u v Hw2) as [L|(h2 & Eh2 & I2)]; [left; apply linked_snoc, L|]. destruct (Z.eqb_spec (cls A u) Tu) as [E|E].
          -- rewrite E, Eh in Eh2. injection Eh2 as <-. destruct (H1 w2 u v I2) as [L|(_ & [I3|I3])]; [left; apply linked_snoc, L| |].
             ++ right. exists (hv ++ h'). rewrite Get. destruct (Z.eqb_spec Tu Tv); [congruence|]. rewrite Z.eqb_refl. split; [reflexivity|]. apply in_or_app. right. exact I3.
             ++ injection I3 as -> -> ->. left. apply linked_edge, in_or_app. right. left. reflexivity.
          -- right. rewrite Get. destruct (Z.eqb_spec Tu (cls A u)); [congruence|]. destruct (Z.eqb_spec Tv (cls A u)) as [E2|E2].
             ++ rewrite <- E2, Ehv in Eh2. injection Eh2 as <-. exists (hv ++ h'). split; [reflexivity|]. apply in_or_app. left. exact I2.
             ++ exists h2. auto.
  Qed.
End Cher.

(** ** The start and the end *)
Definition triples_of (u : Z) (row : list (Z * Z)) : list (Z * Z * Z) := map (fun '(v, w) => (w, u, v)) row.

Lemma heaps_loop g : forall us PQ0, NoDup (dkeys PQ0) -> (forall u, In u us -> exists row, dget g u = Some row /\ (2 <= length row)%nat) ->
  exists PQ, foldM (fun PQ u => do row <- g_adj g u; do h <- heap_of (map (fun '(v, w) => (w, u, v)) row); Ret (dset PQ u h)) us PQ0 = Ret PQ /\ NoDup (dkeys PQ) /\
  forall r, dget PQ r = if in_dec Z.eq_dec r us then match dget g r with Some row => Some (triples_of r row) | None => None end else dget PQ0 r.
Proof.
  induction us as [|u us IH]; intros PQ0 N H; [exists PQ0; split; [reflexivity|]; split; [exact N|]; intros r; reflexivity|].
  destruct (H u (or_introl eq_refl)) as (row & Er & Lr). cbn [foldM]. unfold g_adj at 1, dgetM at 1. rewrite Er. cbn [bind]. unfold heap_of at 1. rewrite map_length. destruct (Nat.ltb_spec (length row) 2); [lia|]. cbn [bind].
  destruct (IH (dset PQ0 u (triples_of u row)) (dset_NoDup _ _ _ N) (fun x X => H x (or_intror X))) as (PQ & E & N' & G). exists PQ. split; [exact E|]. split; [exact N'|].
  intros r. rewrite G. destruct (in_dec Z.eq_dec r us) as [I|I]; destruct (in_dec Z.eq_dec r (u :: us)) as [I'|I'].
  - reflexivity.
  - exfalso. apply I'. right. exact I.
  - destruct I' as [->|]; [|contradiction]. rewrite dget_dset_same, Er. reflexivity.
  - apply dget_dset_other. intros ->. apply I'. left. reflexivity.
Qed.

Lemma heaps_fail g : forall us PQ0, (forall u, In u us -> dget g u <> None) -> (exists u row, In u us /\ dget g u = Some row /\ (length row < 2)%nat) ->
  foldM (fun PQ u => do row <- g_adj g u; do h <- heap_of (map (fun '(v, w) => (w, u, v)) row); Ret (dset PQ u h)) us PQ0 = Raise UnboundLocalError.
Proof.
  induction us as [|u us IH]; intros PQ0 H (u1 & row1 & I1 & E1 & L1); [destruct I1|]. cbn [foldM]. unfold g_adj at 1, dgetM at 1. destruct (dget g u) as [row|] eqn:E; [|destruct (H u (or_introl eq_refl) E)]. cbn [bind]. unfold heap_of at 1. rewrite map_length.
  destruct (Nat.ltb_spec (length row) 2) as [L|L]; [reflexivity|]. cbn [bind]. apply IH; [intros x X; apply H; right; exact X|]. destruct I1 as [->|I1]; [assert (row = row1) by congruence; subst; lia|]. exists u1, row1. auto.
Qed.

Lemma total_ok g T W : total_weight g T W -> ct_total g T = Ret W.
Proof.
  intros H. unfold ct_total. replace W with (0 + W) by lia. generalize 0. induction H as [|u v w T W Hw HT IH]; intros a; cbn [foldM]; [f_equal; lia|].
  unfold weight in Hw. unfold g_adj at 1, dgetM at 1 2. destruct (dget g u) as [row|]; [|discriminate]. cbn [bind]. rewrite Hw. cbn [bind]. rewrite IH. f_equal. lia.
Qed.

Lemma cher_ok g pick : undirected g -> (forall t l, l <> [] -> In (pick t l) l) -> g <> [] -> (forall u a, In (u, a) g -> (2 <= length a)%nat) ->
  (connected g -> exists W T, cheriton_tarjan pick g = Ret (W, sort_pairs (norm T)) /\ minimum_spanning_tree g (dkeys g) T W) /\
  (~ connected g -> cheriton_tarjan pick g = Raise TypeError).
Proof.
  intros Hg Hpick Hne H2. assert (Vne : dkeys g <> []) by (destruct g; [congruence|discriminate]). pose proof Hg as (Ng & Na & _).
  destruct (heaps_loop g (vertices g) [] (NoDup_nil _)) as (PQ & EP & NP & GP).
  { intros u Hu. apply (proj1 (in_K g u)) in Hu. apply dget_key in Hu as (row & Er). exists row. split; [exact Er|]. apply (H2 u row), dget_Some_In, Er. }
  assert (GP' : forall r, dget PQ r = match dget g r with Some row => Some (triples_of r row) | None => None end).
  { intros r. rewrite GP. destruct (in_dec Z.eq_dec r (vertices g)) as [I|I]; [reflexivity|]. cbn [dget]. replace (dget g r) with (@None (list (Z * Z))); [reflexivity|]. symmetry. apply dget_None. rewrite <- (in_K g r). exact I. }
  assert (Inv : cinv g PQ (uf_init (vertices g)) []).
  { split; [exists []; apply uinv_init|]. split; [intros u v []|]. split.
    { unfold classes. replace (map (cls []) (dkeys g)) with (dkeys g) by (symmetry; apply map_id). rewrite nodup_fixed_point by exact Ng. cbn. lia. }
    split; [apply promising_nil|]. split; [split; [exact NP|]|split].
    - intros r. rewrite dget_key. rewrite GP'. rewrite (dget_key g). split; [intros (h & E)|intros ((row & E) & _)].
      + destruct (dget g r) as [row|]; [|discriminate]. split; [eauto|reflexivity].
      + rewrite E. eauto.
    - intros r h w u v E I. rewrite GP' in E. unfold weight. destruct (dget g r) as [row|] eqn:Er; [|discriminate]. injection E as <-. apply in_map_iff in I as ([v' w'] & E & I). injection E as <- <- <-. rewrite Er. split; [|reflexivity]. apply dget_In; [apply (Na r row), dget_Some_In, Er|exact I].
    - intros w u v Hw. right. change (cls [] u) with u. rewrite GP'. unfold weight in Hw. destruct (dget g u) as [row|]; [|discriminate]. eexists. split; [reflexivity|]. apply in_map_iff. exists (v, w). split; [reflexivity|]. apply dget_Some_In, Hw. }
  assert (Ln : length (vertices g) = length (dkeys g)) by (apply Permutation_length, (K_perm g)).
  destruct (loop_ok g Hg pick Hpick (length (vertices g) - 1) PQ (uf_init (vertices g)) [] Inv Vne) as [(C & T & W & E & HW & M)|(C & E)].
  { rewrite Ln. cbn [length]. destruct (dkeys g); [congruence|cbn [length]; lia]. }
  all: unfold cheriton_tarjan, ct_heaps; rewrite EP; cbn [bind]; change (norm []) with (@nil (Z * Z)) in E; rewrite E; cbn [bind].
  - split; [|contradiction]. intros _. exists W, T. rewrite (total_ok g (norm T) W) by (apply norm_tw; assumption). split; [reflexivity|exact M].
  - split; [contradiction|]. intros _. reflexivity.
Qed.

Lemma cher_fail g pick : undirected g -> (exists u a, In (u, a) g /\ (length a < 2)%nat) -> cheriton_tarjan pick g = Raise UnboundLocalError.
Proof.
  intros Hg (u & a & I & L). unfold cheriton_tarjan, ct_heaps. rewrite heaps_fail; [reflexivity| |].
  - intros x Hx E. apply (proj1 (in_K g x)) in Hx. apply dget_None in E. contradiction.
  - exists u, a. split; [apply (in_K g u); apply (in_map fst) in I; exact I|]. split; [|exact L]. apply dget_In; [apply Hg|exact I].
Qed.
