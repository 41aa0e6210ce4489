(** * Proofs: the search for the best exchange *)
From Coq Require Import ZArith List Bool Lia Permutation Sorting.Sorted.
From Verif Require Import Base Py Lists Dict Graph_Model Graph_Spec Graph_Proofs UF_Model UF_Spec UF_Proofs2 Trav_Model Trav_Proofs Paths_Model MST_Model MST_Spec MST_Proofs
  Gab_Spec Gab_Model Gab_Proofs.
Import ListNotations.
Open Scope Z_scope.

Lemma arc_weight_ok g u v : edge g u v -> arc_weight g u v = Ret (arc_key g (u, v)).
Proof.
  intros (w & H). unfold arc_key, arc_weight, weight, dgetM in *. cbn [fst snd]. destruct (dget g u) as [a|]; [|discriminate]. rewrite H. reflexivity.
Qed.
Lemma arc_key_weight g u v w : weight g u v = Some w -> arc_key g (u, v) = w.
Proof. unfold arc_key, arc_weight, weight, dgetM. cbn [fst snd]. destruct (dget g u) as [a|]; [|discriminate]. intros ->. reflexivity. Qed.

Lemma pair_eqb_eq a b : pair_eqb a b = true <-> a = b.
Proof. unfold pair_eqb. destruct a, b. cbn. rewrite andb_true_iff, !Z.eqb_eq. split; [intros (-> & ->); reflexivity|intros E; injection E; auto]. Qed.
Lemma pair_mem_In x l : pair_mem x l = true <-> In x l.
Proof. unfold pair_mem. rewrite existsb_exists. split; [intros (y & Hy & E); apply pair_eqb_eq in E; subst; exact Hy|intros H; exists x; split; [exact H|apply pair_eqb_eq; reflexivity]]. Qed.
Lemma pair_discard_In x y l : In y (pair_discard x l) <-> In y l /\ y <> x.
Proof. unfold pair_discard. rewrite filter_In, negb_true_iff. split; intros (H & E); (split; [exact H|]); [intros ->; assert (pair_eqb x x = true) by (apply pair_eqb_eq; reflexivity); congruence|]. destruct (pair_eqb x y) eqn:E'; [apply pair_eqb_eq in E'; congruence|reflexivity]. Qed.

Definition best_le (b : best) (w : Z) : Prop := le_inf (fst (fst b)) (Some w).

Section Search.
  (** V: the vertices of the tree; U: all vertices. *)
  Context (g : graph) (V : list Z) (root : Z) (F : Z -> Z) (D : Z -> nat) (father : prevs).
  Notation U := (map fst g).
  Hypothesis VU : incl V U.
  Hypothesis R : rooted V root F D.
  Hypothesis Fa : forall v, In v V -> dget father v = Some (Some (F v)).
  Hypothesis Len : (length V <= length father)%nat.
  Hypothesis Te : forall v, In v V -> v <> root -> edge g v (F v).
  Notation anc := (anc F).
  Notation top := (top F D).
  Notation sub := (sub F D).

  Lemma find_father_ok K X a : ninv U X (top K) -> In a V -> exists X', find_father father X a = Ret (top K (F a), X') /\ ninv U X' (top K).
  Proof using R Fa Len Te VU.
    intros N I. unfold find_father, dgetM. rewrite (Fa a I). cbn [bind]. apply nfind_ok; [exact N|]. apply VU, (HF V root F D R). exact I.
  Qed.

  Lemma climb_ok K : K root = false -> forall fuel X a l, ninv U X (top K) -> In a V -> K a = false -> (D a < fuel)%nat -> (forall z, In z l -> (D a < D z)%nat \/ a = root) ->
    exists l' X', climb fuel father X a l = Ret (l', X') /\ ninv U X' (top K) /\ forall z, In z l' <-> In z l \/ (anc z a /\ K z = false).
  Proof using R Fa Len Te VU.
    intros Kr. induction fuel as [|fuel IH]; intros X a l N I Ka Df Hl; [lia|]. cbn [climb]. destruct (mem a l) eqn:M.
    - apply mem_In in M. destruct (Hl a M) as [C| ->]; [lia|]. exists l, X. split; [reflexivity|]. split; [exact N|]. intros z. split; [auto|]. intros [H|(H & _)]; [exact H|]. rewrite (anc_root_only V root F D R z H). exact M.
    - apply mem_false in M. destruct (find_father_ok K X a N I) as (X1 & E & N1). rewrite E. cbn [bind]. destruct (top_spec V root F D R K Kr _ (F a) eq_refl (HF V root F D R a I)) as (T1 & T2 & T3 & T4).
      destruct (Z.eq_dec a root) as [Ea|Na].
      + subst a. rewrite (Fr V root F D R) in *. rewrite (top_free F D K root Kr) in *. destruct fuel as [|fuel].
        * cbn [climb mem existsb]. unfold mem. cbn [existsb]. rewrite Z.eqb_refl. cbn [orb]. exists (root :: l), X1. split; [reflexivity|]. split; [exact N1|]. intros z. cbn [In]. split; [intros [<-|H]; [right; split; [constructor|exact Kr]|auto]|]. intros [H|(H & _)]; [auto|]. left. symmetry. apply (anc_root_only V root F D R z H).
        * cbn [climb]. unfold mem. cbn [existsb]. rewrite Z.eqb_refl. cbn [orb]. exists (root :: l), X1. split; [reflexivity|]. split; [exact N1|]. intros z. cbn [In]. split; [intros [<-|H]; [right; split; [constructor|exact Kr]|auto]|]. intros [H|(H & _)]; [auto|]. left. symmetry. apply (anc_root_only V root F D R z H).
      + pose proof (HD V root F D R a I Na) as Da. assert (Dt : (D (top K (F a)) <= D (F a))%nat) by (destruct (anc_D V root F D R _ _ T1 (HF V root F D R a I)) as [->|]; lia).
        destruct (IH X1 (top K (F a)) (a :: l) N1 T2 T3) as (l' & X' & E' & N' & H'); [lia| |].
        { intros z [<-|Hz]; [left; lia|]. destruct (Hl z Hz) as [C|C]; [left; lia|contradiction]. }
        exists l', X'. split; [exact E'|]. split; [exact N'|]. intros z. rewrite H'. cbn [In]. split.
        * intros [[<-|H]|(H & Kz)]; [right; split; [constructor|exact Ka]|left; exact H|right]. split; [|exact Kz]. apply (anc_trans F z (top K (F a)) a H). constructor. exact T1.
        * intros [H|(H & Kz)]; [auto|]. inversion H; subst; [auto|]. right. split; [apply T4; assumption|exact Kz].
  Qed.

  Lemma meet_ok K : K root = false -> forall fuel X a l, ninv U X (top K) -> In a V -> K a = false -> (D a <= fuel)%nat -> In root l ->
    exists m X', meet fuel father X a l = Ret (m, X') /\ ninv U X' (top K) /\ anc m a /\ K m = false /\ In m l /\ forall z, anc z a -> K z = false -> (D m < D z)%nat -> ~ In z l.
  Proof using R Fa Len Te VU.
    intros Kr. induction fuel as [|fuel IH]; intros X a l N I Ka Df Hl; cbn [meet]; destruct (mem a l) eqn:M.
    1,3: apply mem_In in M; exists a, X; split; [reflexivity|]; split; [exact N|]; split; [constructor|]; split; [exact Ka|]; split; [exact M|]; intros z Hz _ Hd; destruct (anc_D V root F D R z a Hz I) as [->|]; lia.
    - apply mem_false in M. exfalso. apply M. assert (a = root); [|subst; exact Hl]. destruct (Z.eq_dec a root) as [E|Na]; [exact E|]. pose proof (HD V root F D R a I Na). lia.
    - apply mem_false in M. assert (Na : a <> root) by (intros ->; contradiction). destruct (find_father_ok K X a N I) as (X1 & E & N1). rewrite E. cbn [bind]. destruct (top_spec V root F D R K Kr _ (F a) eq_refl (HF V root F D R a I)) as (T1 & T2 & T3 & T4).
      pose proof (HD V root F D R a I Na) as Da. assert (Dt : (D (top K (F a)) <= D (F a))%nat) by (destruct (anc_D V root F D R _ _ T1 (HF V root F D R a I)) as [->|]; lia).
      destruct (IH X1 (top K (F a)) l N1 T2 T3 ltac:(lia) Hl) as (m & X' & E' & N' & A & Km & Im & H). exists m, X'. split; [exact E'|]. split; [exact N'|]. split; [apply (anc_trans F m (top K (F a)) a A); constructor; exact T1|]. split; [exact Km|]. split; [exact Im|].
      intros z Hz Kz Dz. inversion Hz; subst; [exact M|]. apply H; [apply T4; assumption|exact Kz|exact Dz].
  Qed.

  (** No vertex outside the tree is contracted. *)
  Definition outside (K : Z -> bool) : Prop := forall u, ~ In u V -> In u U -> K u = false.

  Definition cand (xy : Z * Z) (z : Z) : Z := arc_key g xy - arc_key g (z, F z).

  Lemma contract_ok xy a : edge g (fst xy) (snd xy) -> forall fuel K X b v, K root = false -> outside K -> ninv U X (top K) -> In v V -> K v = false -> K a = false -> anc a v -> (D v <= fuel)%nat ->
    exists X' b' K', contract fuel g father xy a X b v = Ret (X', b') /\ ninv U X' (top K') /\ K' root = false /\
      (forall z, K' z = true <-> K z = true \/ (anc z v /\ anc a z /\ z <> a /\ K z = false)) /\
      (forall w, best_le b w -> best_le b' w) /\ (forall z, anc z v -> anc a z -> z <> a -> K z = false -> best_le b' (cand xy z)) /\
      (b' = b \/ exists z, anc z v /\ anc a z /\ z <> a /\ K z = false /\ b' = (Some (cand xy z), Some (z, F z), Some xy)).
  Proof using R Fa Len Te VU.
    intros Exy. induction fuel as [|fuel IH]; intros K X b v Kr KO N I Kv Ka A Df; cbn [contract]; destruct (Z.eqb_spec v a) as [Eva|Nva].
    1,3: subst v; exists X, b, K; split; [reflexivity|]; split; [exact N|]; split; [exact Kr|];
      assert (No : forall z, anc z a -> anc a z -> z <> a -> False) by (intros z H1 H2 Hn; apply Hn; apply (anc_antisym V root F D R z a (anc_In V root F D R z a H1 I) I H1 H2));
      split; [intros z; split; [auto|intros [H|(H1 & H2 & H3 & _)]; [exact H|destruct (No z H1 H2 H3)]]|]; split; [auto|]; split; [intros z H1 H2 H3; destruct (No z H1 H2 H3)|left; reflexivity].
    - exfalso. destruct (Z.eq_dec v root) as [->|Nv]; [apply Nva; symmetry; apply (anc_root_only V root F D R a A)|]. pose proof (HD V root F D R v I Nv). lia.
    - assert (Nv : v <> root) by (intros ->; apply Nva; symmetry; apply (anc_root_only V root F D R a A)). pose proof (HD V root F D R v I Nv) as Dv. unfold dgetM at 1. rewrite (Fa v I). cbn [bind]. rewrite (arc_weight_ok g _ _ Exy). cbn [bind]. rewrite (arc_weight_ok g v (F v) (Te v I Nv)). cbn [bind].
      set (b1 := if ltx (arc_key g (fst xy, snd xy) - arc_key g (v, F v)) (fst (fst b)) then (Some (arc_key g (fst xy, snd xy) - arc_key g (v, F v)), Some (v, F v), Some xy) else b). pose proof (HF V root F D R v I) as IF. destruct (nfind_ok U X (top K) (F v) N (VU _ IF)) as (X1 & E1 & N1). rewrite E1. cbn [bind].
      destruct (top_spec V root F D R K Kr _ (F v) eq_refl IF) as (T1 & T2 & T3 & T4). set (w := top K (F v)) in *.
      assert (Nwv : w <> v) by (intros E; apply (anc_above V root F D R v I Nv); rewrite <- E at 1; exact T1).
      destruct (nunion_ok U X1 (top K) v w w N1 ltac:(congruence)) as (X2 & E2 & N2); [exists v; split; [exact (VU _ I)|apply top_free; exact Kv]|exists (F v); split; [exact (VU _ IF)|reflexivity]|auto|]. rewrite E2. cbn [bind].
      set (K1 := fun z => (z =? v) || K z). assert (N3 : ninv U X2 (top K1)). { apply (ninv_ext U X2 (njoin (top K) v w w)); [|exact N2]. intros z Hz. symmetry. destruct (in_dec Z.eq_dec z V) as [Iz|Oz]; [apply (top_add V root F D R K v Kr I Nv Kv (D z) z eq_refl Iz)|].
        assert (Q : z <> v) by (intros ->; contradiction). assert (Q' : z <> w) by (intros ->; contradiction). rewrite (top_free F D K1 z); [|unfold K1; rewrite (KO z Oz Hz); destruct (Z.eqb_spec z v); [contradiction|reflexivity]].
        unfold njoin. rewrite (top_free F D K z (KO z Oz Hz)). destruct (Z.eqb_spec z v); [contradiction|]. destruct (Z.eqb_spec z w); [contradiction|]. reflexivity. }
      assert (KO1 : outside K1) by (intros u Ou Iu; unfold K1; rewrite (KO u Ou Iu); destruct (Z.eqb_spec u v) as [->|]; [contradiction|reflexivity]).
      assert (K1r : K1 root = false) by (unfold K1; rewrite Kr; destruct (Z.eqb_spec root v); [congruence|reflexivity]).
      assert (K1w : K1 w = false) by (unfold K1; rewrite T3; destruct (Z.eqb_spec w v); [contradiction|reflexivity]).
      assert (K1a : K1 a = false) by (unfold K1; rewrite Ka; destruct (Z.eqb_spec a v); [congruence|reflexivity]).
      assert (Aw : anc a w) by (apply T4; [inversion A; subst; [contradiction|assumption]|exact Ka]).
      assert (Dt : (D w <= D (F v))%nat) by (destruct (anc_D V root F D R _ _ T1 IF) as [->|]; lia).
      destruct (IH K1 X2 b1 w K1r KO1 N3 T2 K1w K1a Aw ltac:(lia)) as (X' & b' & K' & E' & N' & Kr' & HK & Hm & Hc & Hb). exists X', b', K'. split; [exact E'|]. split; [exact N'|]. split; [exact Kr'|].
      assert (Eq : forall z, (anc z w /\ anc a z /\ z <> a /\ K1 z = false) \/ z = v <-> (anc z v /\ anc a z /\ z <> a /\ K z = false)).
      { intros z. split.
        - intros [(H1 & H2 & H3 & H4)| ->]; [|split; [constructor|]; split; [exact A|]; split; [congruence|exact Kv]]. split; [apply (anc_trans F z w v H1); constructor; exact T1|]. split; [exact H2|]. split; [exact H3|]. unfold K1 in H4. apply orb_false_iff in H4. apply H4.
        - intros (H1 & H2 & H3 & H4). destruct (Z.eq_dec z v) as [->|Nz]; [right; reflexivity|left]. split; [apply T4; [inversion H1; subst; [contradiction|assumption]|exact H4]|]. split; [exact H2|]. split; [exact H3|]. unfold K1. rewrite H4. destruct (Z.eqb_spec z v); [contradiction|reflexivity]. }
      assert (B1 : (forall u, best_le b u -> best_le b1 u) /\ best_le b1 (cand xy v) /\ (b1 = b \/ b1 = (Some (cand xy v), Some (v, F v), Some xy))).
      { unfold b1, best_le, cand. destruct xy as [x y]. cbn [fst snd] in *. destruct b as [[[m|] e0] f0]; cbn [ltx fst]; [destruct (Z.ltb_spec (arc_key g (x, y) - arc_key g (v, F v)) m); cbn [fst le_inf]|cbn [fst le_inf]]; split; try (intros u Hu; lia); try (intros u []; fail); split; try lia; auto. }
      destruct B1 as (B1 & B2 & B3). split; [|split; [|split]].
      + intros z. rewrite HK. unfold K1 at 1. rewrite orb_true_iff, Z.eqb_eq, <- Eq. tauto.
      + intros u Hu. apply Hm, B1, Hu.
      + intros z H1 H2 H3 H4. destruct (proj2 (Eq z) (conj H1 (conj H2 (conj H3 H4)))) as [(Q1 & Q2 & Q3 & Q4)| ->]; [apply Hc; assumption|apply Hm; exact B2].
      + destruct Hb as [->|(z & Q1 & Q2 & Q3 & Q4 & ->)].
        * destruct B3 as [->| ->]; [left; reflexivity|right]. exists v. split; [constructor|]. split; [exact A|]. split; [congruence|]. split; [exact Kv|reflexivity].
        * right. exists z. destruct (proj1 (Eq z) (or_introl (conj Q1 (conj Q2 (conj Q3 Q4))))) as (P1 & P2 & P3 & P4). auto.
  Qed.

  Lemma not_father_ok x y : In x V -> not_father father x y = Ret (negb (F x =? y)).
  Proof using Fa. intros I. unfold not_father, dgetM. rewrite (Fa x I). reflexivity. Qed.

  Lemma exchange_ok K X marked b x y : K root = false -> outside K -> ninv U X (top K) -> In x V -> In y V -> edge g x y -> F x <> y -> F y <> x ->
    pair_mem (x, y) marked || pair_mem (y, x) marked = false ->
    exists X' b' K', exchange_step g father (X, marked, b) (x, y) = Ret (X', marked, b') /\ ninv U X' (top K') /\ K' root = false /\ outside K' /\
      (forall z, In z V -> (K' z = true <-> K z = true \/ sub z x <> sub z y)) /\
      (forall w, best_le b w -> best_le b' w) /\ (forall z, In z V -> K z = false -> sub z x <> sub z y -> best_le b' (cand (x, y) z)) /\
      (b' = b \/ exists z, In z V /\ K z = false /\ sub z x <> sub z y /\ b' = (Some (cand (x, y) z), Some (z, F z), Some (x, y))).
  Proof using R Fa Len Te VU.
    intros Kr KO N Ix Iy E Nx Ny Mk. unfold exchange_step. rewrite Mk. rewrite (not_father_ok x y Ix). destruct (Z.eqb_spec (F x) y); [contradiction|]. cbn [negb bind]. rewrite (not_father_ok y x Iy). destruct (Z.eqb_spec (F y) x); [contradiction|]. cbn [negb bind].
    set (nn := Datatypes.S (length father)). assert (Bn : forall u, In u V -> (D u < nn)%nat) by (intros u Iu; pose proof (D_bound V root F D R u Iu); unfold nn; lia).
    destruct (top_spec V root F D R K Kr _ x eq_refl Ix) as (X1 & X2 & X3 & X4). destruct (top_spec V root F D R K Kr _ y eq_refl Iy) as (Y1 & Y2 & Y3 & Y4).
    destruct (nfind_ok U X (top K) x N (VU _ Ix)) as (S1 & E1 & N1). rewrite E1. cbn [bind].
    destruct (climb_ok K Kr nn S1 (top K x) [] N1 X2 X3 (Bn _ X2)) as (l & S2 & E2 & N2 & Hl); [intros z []|]. rewrite E2. cbn [bind].
    assert (Hl' : forall z, In z l <-> anc z x /\ K z = false). { intros z. rewrite Hl. cbn [In]. split; [intros [[]|(H & Kz)]; split; [apply (anc_trans F z (top K x) x H X1)|exact Kz]|]. intros (H & Kz). right. split; [apply X4; assumption|exact Kz]. }
    destruct (nfind_ok U S2 (top K) y N2 (VU _ Iy)) as (S3 & E3 & N3). rewrite E3. cbn [bind].
    destruct (meet_ok K Kr nn S3 (top K y) l N3 Y2 Y3) as (m & S4 & E4 & N4 & Am & Km & Im & Hm); [specialize (Bn _ Y2); lia|apply Hl'; split; [apply (anc_root V root F D R x Ix)|exact Kr]|]. rewrite E4. cbn [bind].
    apply Hl' in Im. destruct Im as (Amx & _). assert (Amy : anc m y) by (apply (anc_trans F m (top K y) y Am Y1)).
    assert (Lower : forall z u, In u V -> anc z u -> anc m z -> z <> m -> (D m < D z)%nat). { intros z u Iu H1 H2 H3. destruct (anc_D V root F D R m z H2 (anc_In V root F D R z u H1 Iu)) as [Q|Q]; [congruence|exact Q]. }
    destruct (nfind_ok U S4 (top K) x N4 (VU _ Ix)) as (S5 & E5 & N5). rewrite E5. cbn [bind].
    destruct (contract_ok (x, y) m E nn K S5 b (top K x) Kr KO N5 X2 X3 Km (X4 m Amx Km)) as (S6 & b1 & K1 & E6 & N6 & Kr1 & HK1 & Mo1 & Ca1 & Be1); [specialize (Bn _ X2); lia|]. rewrite E6. cbn [bind].
    assert (KO1 : outside K1). { intros u Ou Iu. destruct (K1 u) eqn:Q; [|reflexivity]. apply HK1 in Q. destruct Q as [Q|(Q & _)]; [rewrite (KO u Ou Iu) in Q; discriminate|]. destruct Ou. apply (anc_In V root F D R u _ Q X2). }
    assert (P1 : forall z, In z V -> K z = false -> (anc z (top K x) /\ anc m z /\ z <> m <-> anc z x /\ ~ anc z y)).
    { intros z Iz Kz. split.
      - intros (H1 & H2 & H3). assert (Azx : anc z x) by (apply (anc_trans F z (top K x) x H1 X1)). split; [exact Azx|]. intros Azy. apply (Hm z (Y4 z Azy Kz) Kz (Lower z y Iy Azy H2 H3)). apply Hl'. auto.
      - intros (Azx & Nzy). split; [apply X4; assumption|]. destruct (anc_total F z m x Azx Amx) as [Q|Q]; [destruct Nzy; apply (anc_trans F z m y Q Amy)|]. split; [exact Q|]. intros ->. contradiction. }
    assert (K1m : K1 m = false). { destruct (K1 m) eqn:Q; [|reflexivity]. apply HK1 in Q. destruct Q as [Q|(_ & _ & Q & _)]; congruence. }
    destruct (nfind_ok U S6 (top K1) y N6 (VU _ Iy)) as (S7 & E7 & N7). rewrite E7. cbn [bind].
    destruct (top_spec V root F D R K1 Kr1 _ y eq_refl Iy) as (Z1 & Z2 & Z3 & Z4).
    destruct (contract_ok (x, y) m E nn K1 S7 b1 (top K1 y) Kr1 KO1 N7 Z2 Z3 K1m (Z4 m Amy K1m)) as (S8 & b2 & K2 & E8 & N8 & Kr2 & HK2 & Mo2 & Ca2 & Be2); [specialize (Bn _ Z2); lia|]. rewrite E8. cbn [bind].
    assert (KO2 : outside K2). { intros u Ou Iu. destruct (K2 u) eqn:Q; [|reflexivity]. apply HK2 in Q. destruct Q as [Q|(Q & _)]; [rewrite (KO1 u Ou Iu) in Q; discriminate|]. destruct Ou. apply (anc_In V root F D R u _ Q Z2). }
    assert (P2 : forall z, In z V -> K z = false -> (anc z (top K1 y) /\ anc m z /\ z <> m /\ K1 z = false <-> anc z y /\ ~ anc z x)).
    { intros z Iz Kz. split.
      - intros (H1 & H2 & H3 & H4). assert (Azy : anc z y) by (apply (anc_trans F z (top K1 y) y H1 Z1)). split; [exact Azy|]. intros Azx. apply (Hm z (Y4 z Azy Kz) Kz (Lower z y Iy Azy H2 H3)). apply Hl'. auto.
      - intros (Azy & Nzx). assert (K1z : K1 z = false). { destruct (K1 z) eqn:Q; [|reflexivity]. apply HK1 in Q. destruct Q as [Q|(Q1 & Q2 & Q3 & _)]; [congruence|]. destruct Nzx. apply (anc_trans F z (top K x) x Q1 X1). }
        split; [apply Z4; assumption|]. destruct (anc_total F z m y Azy Amy) as [Q|Q]; [destruct Nzx; apply (anc_trans F z m x Q Amx)|]. split; [exact Q|]. split; [intros ->; contradiction|exact K1z]. }
    assert (Df : forall z, sub z x <> sub z y <-> (anc z x /\ ~ anc z y) \/ (anc z y /\ ~ anc z x)).
    { intros z. pose proof (sub_anc V root F D R z x Ix) as Q1. pose proof (sub_anc V root F D R z y Iy) as Q2. destruct (sub z x), (sub z y); intuition congruence. }
    exists S8, b2, K2. split; [reflexivity|]. split; [exact N8|]. split; [exact Kr2|]. split; [exact KO2|]. split; [|split; [|split]].
    - intros z Iz. rewrite HK2, HK1, Df. destruct (K z) eqn:Kz; [intuition congruence|]. pose proof (P1 z Iz Kz) as Q1. pose proof (P2 z Iz Kz) as Q2. tauto.
    - intros w Hw. apply Mo2, Mo1, Hw.
    - intros z Iz Kz Hd. apply Df in Hd. destruct Hd as [Hd|Hd].
      + apply (P1 z Iz Kz) in Hd. destruct Hd as (H1 & H2 & H3). apply Mo2. apply Ca1; assumption.
      + apply (P2 z Iz Kz) in Hd. destruct Hd as (H1 & H2 & H3 & H4). apply Ca2; assumption.
    - destruct Be2 as [->|(z & H1 & H2 & H3 & H4 & ->)].
      + destruct Be1 as [->|(z & H1 & H2 & H3 & H4 & ->)]; [left; reflexivity|right]. assert (Iz : In z V) by (apply (anc_In V root F D R z _ H1 X2)). exists z. split; [exact Iz|]. split; [exact H4|]. split; [apply Df; left; apply (P1 z Iz H4); auto|reflexivity].
      + right. assert (Iz : In z V) by (apply (anc_In V root F D R z _ H1 Z2)). assert (Kz : K z = false). { destruct (K z) eqn:Q; [|reflexivity]. assert (K1 z = true) by (apply HK1; auto). congruence. }
        exists z. split; [exact Iz|]. split; [exact Kz|]. split; [apply Df; right; apply (P2 z Iz Kz); auto|reflexivity].
  Qed.

  (** The edges of the graph in the order of their weights. *)
  Context (edges : list (Z * Z)).
  Hypothesis Ed : forall x y, In (x, y) edges -> In x V /\ In y V /\ edge g x y /\ x <= y.
  Hypothesis EdN : NoDup edges.
  Hypothesis EdS : StronglySorted (fun a b => arc_key g a <= arc_key g b) edges.

  Definition swap (e : Z * Z) : Z * Z := (snd e, fst e).
  Definition free (ex : list (Z * Z)) (f : Z * Z) : Prop := In f edges /\ ~ In f ex /\ ~ In (swap f) ex /\ F (fst f) <> snd f /\ F (snd f) <> fst f.
  Definition ok_pair (ex : list (Z * Z)) (IN : Z -> bool) (f : Z * Z) (z : Z) : Prop :=
    free ex f /\ In z V /\ z <> root /\ IN z = false /\ sub z (fst f) <> sub z (snd f).

  Lemma edges_loop_ok ex IN X0 marked0 : IN root = false -> outside IN -> ninv U X0 (top IN) -> (forall e, In e marked0 <-> In e ex) -> (forall e, In e ex -> In e edges \/ In (swap e) edges) ->
    exists X b, foldM (exchange_step g father) edges (X0, marked0, (None, None, None)) = Ret (X, [], b) /\ (exists K, ninv U X (top K) /\ outside K) /\
      (forall f z, ok_pair ex IN f z -> best_le b (cand f z)) /\
      (b = (None, None, None) \/ exists f z, ok_pair ex IN f z /\ b = (Some (cand f z), Some (z, F z), Some f)).
  Proof using R Fa Len Te VU Ed EdN EdS.
    intros Kr KO N Mk Exc.
    destruct (foldM_inv (exchange_step g father) (fun pre '(X, marked, b) => exists K, ninv U X (top K) /\ K root = false /\ outside K /\ (forall z, In z V -> IN z = true -> K z = true) /\
       (forall e, In e marked <-> In e ex /\ ~ In e pre /\ ~ In (swap e) pre) /\
       (forall z, In z V -> K z = true -> IN z = false -> forall f post, edges = pre ++ post -> In f post -> best_le b (cand f z)) /\
       (forall f z, In f pre -> ok_pair ex IN f z -> best_le b (cand f z)) /\
       (b = (None, None, None) \/ exists f z, ok_pair ex IN f z /\ b = (Some (cand f z), Some (z, F z), Some f))) edges (X0, marked0, (None, None, None))) as (((X & marked) & b) & E & K & NK' & _ & KO' & _ & Hm & _ & HB & HS).
    - exists IN. split; [exact N|]. split; [exact Kr|]. split; [exact KO|]. split; [auto|]. split; [intros e; rewrite Mk; cbn [In]; tauto|]. split; [intros z _ H1 H2; congruence|]. split; [intros f z []|left; reflexivity].
    - intros pre (x & y) post ((X & marked) & b) Es (K & NK & KR & KO' & KI & KM & KA & KB & KS). destruct (Ed x y) as (Ix & Iy & Exy & Le); [rewrite Es; apply in_elt|].
      assert (Npre : ~ In (x, y) pre). { intros Q. rewrite Es in EdN. apply NoDup_remove_2 in EdN. apply EdN. apply in_or_app. left. exact Q. }
      assert (Nsw : ~ In (y, x) pre). { intros Q. assert (In (y, x) edges) by (rewrite Es; apply in_or_app; left; exact Q). destruct (Ed y x H) as (_ & _ & _ & Le'). assert (x = y) by lia. subst y. contradiction. }
      assert (Later : forall f, In f post -> arc_key g (x, y) <= arc_key g f). { intros f Hf. rewrite Es in EdS. clear - EdS Hf. induction pre as [|a pre IH]; cbn [app] in EdS; inversion EdS; subst; [|apply IH; assumption]. rewrite Forall_forall in H2. apply (H2 f Hf). }
      destruct (pair_mem (x, y) marked || pair_mem (y, x) marked) eqn:Q.
      + (* an excluded edge *)
        eexists. split; [unfold exchange_step; rewrite Q; reflexivity|]. exists K. split; [exact NK|]. split; [exact KR|]. split; [exact KO'|]. split; [exact KI|]. split; [|split; [|split]].
        * intros e. rewrite !pair_discard_In, KM, !in_app_iff. cbn [In]. unfold swap. destruct e as (u & v). cbn [fst snd]. split.
          -- intros (((H1 & H2 & H3) & H4) & H5). split; [exact H1|]. split; intros [H|[H|[]]]; try contradiction; congruence.
          -- intros (H1 & H2 & H3). split; [split; [split; [exact H1|split; intros H; [apply H2|apply H3]; left; exact H]|]|]; intros H; injection H as -> ->; [apply H2|apply H3]; right; left; reflexivity.
        * intros z Iz Kz Iz' f post' Ep Hf. apply (KA z Iz Kz Iz' f ((x, y) :: post') ltac:(rewrite Ep, <- app_assoc; reflexivity)). right. exact Hf.
        * intros f z Hf Ho. apply in_app_or in Hf as [Hf|[<-|[]]]; [apply KB; assumption|]. exfalso. destruct Ho as ((_ & H1 & H2 & _) & _). apply orb_true_iff in Q. destruct Q as [Q|Q]; apply pair_mem_In in Q; apply KM in Q; destruct Q as (Q & _); contradiction.
        * exact KS.
      + assert (NotEx : ~ In (x, y) ex /\ ~ In (y, x) ex). { apply orb_false_iff in Q. destruct Q as (Q1 & Q2). split; intros H; [assert (pair_mem (x, y) marked = true); [|congruence]|assert (pair_mem (y, x) marked = true); [|congruence]]; apply pair_mem_In, KM; unfold swap; cbn [fst snd]; auto. }
        assert (KM' : forall e, In e marked <-> In e ex /\ ~ In e (pre ++ [(x, y)]) /\ ~ In (swap e) (pre ++ [(x, y)])).
        { intros e. rewrite KM, !in_app_iff. cbn [In]. split; intros (H1 & H2 & H3); (split; [exact H1|]); [|tauto]. split; intros [H|[H|[]]]; try contradiction; [subst e; destruct NotEx; contradiction|]. unfold swap in H. destruct e as (u & v). cbn in H. injection H as <- <-. destruct NotEx; contradiction. }
        destruct (Z.eq_dec (F x) y) as [Fx|Fx]; [|destruct (Z.eq_dec (F y) x) as [Fy|Fy]].
        1,2: (exists (X, marked, b); split;
          [unfold exchange_step; rewrite Q; rewrite (not_father_ok x y Ix), (not_father_ok y x Iy); [first [rewrite Fx, Z.eqb_refl; reflexivity|rewrite Fy, Z.eqb_refl; cbn [negb bind]; destruct (F x =? y); reflexivity]]|];
          exists K; split; [exact NK|]; split; [exact KR|]; split; [exact KO'|]; split; [exact KI|]; split; [exact KM'|]; split;
          [intros z Iz Kz Iz' f post' Ep Hf; apply (KA z Iz Kz Iz' f ((x, y) :: post') ltac:(rewrite Ep, <- app_assoc; reflexivity)); right; exact Hf|]; split; [|exact KS];
          intros f z Hf Ho; apply in_app_or in Hf as [Hf|[<-|[]]]; [apply KB; assumption|]; exfalso; destruct Ho as ((_ & _ & _ & H1 & H2) & _); cbn [fst snd] in *; congruence).
        destruct (exchange_ok K X marked b x y KR KO' NK Ix Iy Exy Fx Fy Q) as (X' & b' & K' & E' & N' & KR' & KO2 & HK & Mo & Ca & Be). exists (X', marked, b'). split; [exact E'|]. exists K'. split; [exact N'|]. split; [exact KR'|]. split; [exact KO2|].
        split; [intros z Iz Hz; apply (HK z Iz); left; apply KI; assumption|]. split; [exact KM'|]. split; [|split].
        * intros z Iz Kz Iz' f post' Ep Hf. assert (post' = post) by (rewrite Es in Ep; rewrite <- app_assoc in Ep; apply app_inv_head in Ep; cbn in Ep; congruence). subst post'. destruct (K z) eqn:Kz0.
          -- apply Mo. apply (KA z Iz Kz0 Iz' f ((x, y) :: post) Es). right. exact Hf.
          -- apply (HK z Iz) in Kz. destruct Kz as [Kz|Kz]; [congruence|]. pose proof (Ca z Iz Kz0 Kz) as C. pose proof (Later f Hf). unfold best_le, cand in *. destruct (fst (fst b')); cbn [le_inf] in *; [lia|exact C].
        * intros f z Hf Ho. apply in_app_or in Hf as [Hf|[<-|[]]]; [apply Mo, KB; assumption|]. destruct Ho as (_ & Iz & Nz & INz & Sd). destruct (K z) eqn:Kz; [|apply Ca; assumption]. apply Mo. apply (KA z Iz Kz INz (x, y) ((x, y) :: post) Es). left. reflexivity.
        * destruct Be as [->|(z & Iz & Kz & Sd & ->)]; [exact KS|right]. exists (x, y), z. split; [|reflexivity]. split; [split; [rewrite Es; apply in_elt|split; [apply NotEx|split; [apply NotEx|split; [exact Fx|exact Fy]]]]|]. split; [exact Iz|]. split; [|split; [destruct (IN z) eqn:Q'; [rewrite (KI z Iz Q') in Kz; discriminate|reflexivity]|exact Sd]].
          intros ->. apply Sd. rewrite (proj2 (sub_anc V root F D R root x Ix) (anc_root V root F D R x Ix)), (proj2 (sub_anc V root F D R root y Iy) (anc_root V root F D R y Iy)). reflexivity.
    - assert (marked = []). { destruct marked as [|e marked]; [reflexivity|]. exfalso. destruct (proj1 (Hm e) (or_introl eq_refl)) as (H1 & H2 & H3). destruct (Exc e H1); contradiction. } subst marked.
      exists X, b. split; [exact E|]. split; [exists K; split; [exact NK'|exact KO']|]. split; [|exact HS]. intros f z Ho. apply HB; [apply Ho|exact Ho].
  Qed.
End Search.
