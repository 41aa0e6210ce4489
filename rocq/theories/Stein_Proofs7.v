(** * Proofs about Steiner trees: networks with infinite weights *)
From Coq Require Import ZArith List Lia Bool Permutation Sorting.Sorted.
From Verif Require Import Base Py Dict Lists Lists2 Graph_Model Graph_Spec Graph_Proofs Graph_Proofs2 Graph_Props UF_Model UF_Spec UF_Proofs Trav_Model Trav_Spec Trav_Proofs Trav_Proofs2
  Paths_Model Paths_Spec Paths_Props Paths_Proofs6 MST_Model MST_Spec MST_Proofs MST_Proofs2 MST_Props Color_Model Kor_Model Kor_Proofs Stein_Model Stein_Spec Stein_Proofs Stein_Proofs2 Stein_Proofs3 Stein_Proofs4.
Import ListNotations.
Open Scope Z_scope.

(** ** The edges of finite weight *)
Definition fin (row : list (Z * ext)) : list (Z * Z) := flat_map (fun vw => match snd vw with Some w => [(fst vw, w)] | None => [] end) row.
Definition finite (N : xgraph) : graph := map (fun ua => (fst ua, fin (snd ua))) N.
Definition xweight (N : xgraph) (u v : Z) : option ext := match dget N u with Some row => dget row v | None => None end.

Lemma fin_keys row v : In v (map fst (fin row)) -> In v (map fst row).
Proof.
  induction row as [|(x, [w|]) row IH]; cbn [fin flat_map snd fst app map In]; [tauto|intros [E|I]; [auto|right; apply IH, I]|intros I; right; apply IH, I].
Qed.
Lemma fin_NoDup row : NoDup (map fst row) -> NoDup (map fst (fin row)).
Proof.
  induction row as [|(x, w) row IH]; intros N; [constructor|]. cbn [map fst] in N. inversion_clear N as [|? ? N1 N2]. destruct w as [w|]; cbn [fin flat_map snd fst app map]; [constructor; [|apply IH, N2]|apply IH, N2].
  intros I. apply N1, fin_keys, I.
Qed.
Lemma dget_fin row v : NoDup (map fst row) -> dget (fin row) v = match dget row v with Some (Some w) => Some w | _ => None end.
Proof.
  induction row as [|(x, w) row IH]; intros N; [reflexivity|]. cbn [map fst] in N. inversion_clear N as [|? ? N1 N2]. specialize (IH N2).
  destruct w as [w|]; cbn [fin flat_map snd fst app]; cbn [dget]; fold (fin row).
  - destruct (Z.eqb_spec x v); [reflexivity|exact IH].
  - destruct (Z.eqb_spec x v) as [->|]; [|exact IH]. destruct (dget (fin row) v) eqn:E; [|reflexivity]. exfalso. apply N1, fin_keys. apply dget_key. eauto.
Qed.
Lemma finite_get N u : dget (finite N) u = option_map fin (dget N u).
Proof. apply dget_map. Qed.
Lemma finite_keys N : dkeys (finite N) = dkeys N.
Proof. unfold dkeys, finite. rewrite map_map. reflexivity. Qed.
Lemma finite_arcs N : (arcs (finite N) <= fold_right (fun ua t => (length (snd ua) + t)%nat) O N)%nat.
Proof.
  induction N as [|(u, row) N IH]; [apply le_n|]. cbn [finite map arcs fold_right fst snd]. apply Nat.add_le_mono; [|exact IH]. clear. induction row as [|(x, [w|]) row IH]; cbn [fin flat_map snd app length] in *; [lia|fold (fin row); lia|fold (fin row); lia].
Qed.

(** ** prim does not use edges of infinite weight *)
Lemma scan_eq u vis : forall row cost prev heap, (forall v, In v (map fst row) -> In v (dkeys cost)) ->
  xprim_scan u vis row (cost, prev, heap) = prim_scan u vis (fin row) (cost, prev, heap) /\
  forall c p h, prim_scan u vis (fin row) (cost, prev, heap) = Ret (c, p, h) -> forall v, In v (dkeys cost) -> In v (dkeys c).
Proof.
  unfold xprim_scan, prim_scan. induction row as [|(x, w) row IH]; intros cost prev heap K; [split; [reflexivity|]; cbn; intros c p h E v; congruence|].
  assert (K' : forall v, In v (map fst row) -> In v (dkeys cost)) by (intros v I; apply K; right; exact I).
  assert (Kx : exists cv, dget cost x = Some cv) by (apply dget_key, K; left; reflexivity). destruct Kx as (cv & Ex0). assert (Ex : dgetM cost x = Ret cv) by (unfold dgetM; rewrite Ex0; reflexivity).
  destruct w as [w|]; cbn [fin flat_map snd fst app]; fold (fin row); cbn [foldM].
  - destruct (mem x vis); [cbn [bind]; apply IH, K'|]. rewrite Ex. cbn [bind]. destruct (ltx w cv); cbn [bind]; [|apply IH, K'].
    destruct (IH (dset cost x (Some w)) (dset prev x (Some u)) ((w, x) :: heap)) as (A & B); [intros v I; apply dkeys_dset_In; left; apply K', I|]. split; [exact A|].
    intros c p h E v I. apply (B c p h E). apply dkeys_dset_In. left. exact I.
  - destruct (mem x vis); [cbn [bind]; apply IH, K'|]. rewrite Ex. cbn [bind]. apply IH, K'.
Qed.
Lemma loop_eq N : (forall u row, dget N u = Some row -> forall v, In v (map fst row) -> In v (dkeys N)) ->
  forall fuel cost prev heap vis, (forall v, In v (dkeys N) -> In v (dkeys cost)) -> xprim_loop N fuel cost prev heap vis = prim_loop (finite N) fuel cost prev heap vis.
Proof.
  intros C. induction fuel as [|f IH]; intros cost prev heap vis K; destruct heap as [|x rest]; try reflexivity. cbn [xprim_loop prim_loop].
  destruct (pop_min pair_ltb x rest) as ((k, u) & heap'). destruct (mem u vis); [apply IH, K|]. unfold g_adj, dgetM. rewrite finite_get. destruct (dget N u) as [row|] eqn:E; cbn [option_map bind]; [|reflexivity].
  destruct (scan_eq u (vis ++ [u]) row cost prev heap') as (A & B); [intros v I; apply K, (C u row E), I|]. rewrite A. destruct (prim_scan u (vis ++ [u]) (fin row) (cost, prev, heap')) as [((c, p), h)| |] eqn:F; cbn [bind]; try reflexivity.
  apply IH. intros v I. apply (B c p h eq_refl), K, I.
Qed.
Lemma prim_loop_mono g : forall f f' cost prev heap vis r, prim_loop g f cost prev heap vis = Ret r -> (f <= f')%nat -> prim_loop g f' cost prev heap vis = Ret r.
Proof.
  induction f as [|f IH]; intros f' cost prev heap vis r E L; destruct heap as [|x rest]; destruct f' as [|f']; try exact E; try discriminate E; try lia.
  cbn [prim_loop] in *. destruct (pop_min pair_ltb x rest) as ((k, u) & heap'). destruct (mem u vis); [apply IH; [exact E|lia]|].
  destruct (g_adj g u) as [row| |]; cbn [bind] in *; try discriminate E. destruct (prim_scan u (vis ++ [u]) row (cost, prev, heap')) as [((c, p), h)| |]; cbn [bind] in *; try discriminate E. apply IH; [exact E|lia].
Qed.
Lemma edges_eq N prev W E : (forall u row, In (u, row) N -> NoDup (map fst row)) -> NoDup (dkeys N) -> prim_edges (finite N) prev = Ret (W, E) -> xprim_edges N prev = Ret (Some W, E).
Proof.
  intros HN _. unfold prim_edges, xprim_edges. match goal with |- foldM ?A prev _ = _ -> foldM ?B prev _ = _ => set (FA := A); set (FB := B) end. generalize 0 as t, (@nil (Z * Z)) as es. induction prev as [|(u, p) prev IH]; intros t es; cbn [foldM]; [congruence|]. unfold FA at 1, FB at 1.
  destruct p as [v|]; cbn [bind]; [|apply IH]. unfold g_adj, dgetM. rewrite finite_get. destruct (dget N u) as [row|] eqn:Eu; cbn [option_map bind]; [|discriminate].
  rewrite dget_fin. 2:{ apply (HN u row). apply dget_Some_In. exact Eu. } destruct (dget row v) as [[w|]|]; cbn [bind]; try discriminate. apply IH.
Qed.
Theorem xprim_eq N W T : (forall u row, In (u, row) N -> NoDup (map fst row)) -> NoDup (dkeys N) -> (forall u row, dget N u = Some row -> forall v, In v (map fst row) -> In v (dkeys N)) ->
  prim (finite N) None = Ret (W, T) -> xprim N = Ret (Some W, T).
Proof.
  intros H1 H2 H3. unfold prim, prim_run, prim_root, xprim. rewrite finite_keys. destruct (dkeys N) as [|root ks] eqn:Ek; [discriminate|]. cbn [bind]. unfold all_keys. rewrite finite_keys, Ek.
  destruct (prim_loop (finite N) _ _ _ _ _) as [prev| |] eqn:E; cbn [bind]; try discriminate. rewrite loop_eq.
  - rewrite (prim_loop_mono _ _ (S (fold_right (fun ua t => (length (snd ua) + t)%nat) O N)) _ _ _ _ _ E) by (apply le_n_S, finite_arcs). cbn [bind].
    destruct (prim_edges (finite N) prev) as [(t, es)| |] eqn:F; cbn [bind]; try discriminate. rewrite (edges_eq N prev t es H1 ltac:(rewrite Ek; exact H2) F). cbn [bind]. congruence.
  - rewrite Ek. exact H3.
  - rewrite Ek. intros v I. apply dkeys_dset_In. left. unfold dkeys. rewrite map_map, map_id. exact I.
Qed.

(** ** The network as a graph *)
Definition mapw (f : ext -> Z) (N : xgraph) : graph := map (fun ua => (fst ua, map (fun vw => (fst vw, f (snd vw))) (snd ua))) N.
Lemma map_dset {V W} (F : V -> W) d k v : map (fun va => (fst va, F (snd va))) (dset d k v) = dset (map (fun va => (fst va, F (snd va))) d) k (F v).
Proof. induction d as [|(x, w) d IH]; [reflexivity|]. cbn [dset map fst snd]. destruct (x =? k); cbn [map fst snd]; [reflexivity|]. rewrite IH. reflexivity. Qed.
Lemma mapw_arc f N a b w : mapw f (xadd_arc N a b w) = add_arc (mapw f N) a b (f w).
Proof.
  unfold xadd_arc, add_arc, mapw. rewrite (dget_map (fun row => map (fun vw : Z * ext => (fst vw, f (snd vw))) row)).
  destruct (dget N a) as [d|]; cbn [option_map]; rewrite (map_dset (fun row => map (fun vw : Z * ext => (fst vw, f (snd vw))) row)); [rewrite (map_dset f)|]; reflexivity.
Qed.
Lemma mapw_edges f : forall L N, mapw f (xadd_edges N L) = add_edges (mapw f N) (map (fun e => (fst (fst e), snd (fst e), f (snd e))) L).
Proof. induction L as [|((u, v), w) L IH]; intros N; [reflexivity|]. change (mapw f (xadd_edges (xadd_edge N u v w) L) = add_edges (add_edge (mapw f N) u v (f w)) (map (fun e => (fst (fst e), snd (fst e), f (snd e))) L)). rewrite IH. unfold xadd_edge, add_edge. rewrite !mapw_arc. reflexivity. Qed.
Definition enc (e : ext) : Z := match e with None => 0 | Some w => if 0 <=? w then w + 1 else w end.
Lemma enc_inj a b : enc a = enc b -> a = b.
Proof.
  destruct a as [a|], b as [b|]; cbn [enc]; [destruct (Z.leb_spec 0 a), (Z.leb_spec 0 b); intros; (f_equal; lia)|destruct (Z.leb_spec 0 a); lia|destruct (Z.leb_spec 0 b); lia|reflexivity].
Qed.
Lemma mapw_weight f N x y : weight (mapw f N) x y = option_map f (xweight N x y).
Proof.
  unfold weight, xweight, mapw. rewrite (dget_map (fun row => map (fun vw : Z * ext => (fst vw, f (snd vw))) row)). destruct (dget N x) as [row|]; cbn [option_map]; [|reflexivity]. apply dget_map.
Qed.
Lemma mapw_keys f N : map fst (mapw f N) = dkeys N. Proof. unfold mapw, dkeys. rewrite map_map. reflexivity. Qed.

Lemma arc_keys N a b w : exists ks, dkeys (xadd_arc N a b w) = dkeys N ++ ks.
Proof. unfold xadd_arc. destruct (dget N a) as [d|]; rewrite dkeys_dset; destruct (dmem N a); eexists; try reflexivity; symmetry; apply app_nil_r. Qed.
Lemma edges_keys : forall L N, exists ks, dkeys (xadd_edges N L) = dkeys N ++ ks.
Proof.
  induction L as [|((u, v), w) L IH]; intros N; [exists []; symmetry; apply app_nil_r|]. cbn [xadd_edges fold_left]. destruct (IH (xadd_edge N u v w)) as (k1 & E1). unfold xadd_edges in E1. rewrite E1. unfold xadd_edge.
  destruct (arc_keys (xadd_arc N u v w) v u w) as (k2 & E2), (arc_keys N u v w) as (k3 & E3). rewrite E2, E3, <- !app_assoc. eexists. reflexivity.
Qed.
Lemma first_key u v w L : exists ks, dkeys (xadd_edges [] ((u, v, w) :: L)) = u :: ks.
Proof.
  cbn [xadd_edges fold_left]. destruct (edges_keys L (xadd_edge [] u v w)) as (k1 & E1). unfold xadd_edges in E1. rewrite E1. unfold xadd_edge. destruct (arc_keys (xadd_arc [] u v w) v u w) as (k2 & E2). rewrite E2. eexists. reflexivity.
Qed.

Section Network.
  Context (D : Z -> Z -> ext) (L : list (Z * Z)).
  Hypothesis Ds : forall x y, D x y = D y x.
  Definition net : xgraph := xadd_edges [] (map (fun e => (fst e, snd e, D (fst e) (snd e))) L).

  Lemma net_ok : NoDup (dkeys net) /\ (forall u row, In (u, row) net -> NoDup (map fst row)) /\ (forall u row, dget net u = Some row -> forall v, In v (map fst row) -> In v (dkeys net)) /\
    (forall x, In x (dkeys net) <-> ends L x) /\ (forall x y, (adjacent L x y -> xweight net x y = Some (D x y)) /\ (~ adjacent L x y -> xweight net x y = None)).
  Proof using Ds.
    destruct (add_edges_sub (fun x y => enc (D x y)) L) as ((U1 & U2 & U3 & U4) & Vx & Wx); [intros x y; rewrite Ds; reflexivity|].
    assert (E : add_edges empty_graph (map (fun e => (fst e, snd e, enc (D (fst e) (snd e)))) L) = mapw enc net) by (unfold net; rewrite mapw_edges, map_map; reflexivity).
    rewrite E in *. clear E. rewrite mapw_keys in U1.
    split; [exact U1|]. split; [|split; [|split]].
    - intros u row I. specialize (U2 u (map (fun vw => (fst vw, enc (snd vw))) row)). rewrite map_map in U2. apply U2. unfold mapw. apply in_map_iff. exists (u, row). auto.
    - intros u row Eu v Iv. rewrite <- (mapw_keys enc). apply (U3 u v). unfold edge. rewrite mapw_weight. unfold xweight. rewrite Eu. apply dget_key in Iv as (w & Ew). rewrite Ew. eexists. reflexivity.
    - intros x. rewrite <- (mapw_keys enc). apply Vx.
    - intros x y. destruct (Wx x y) as (W1 & W2). rewrite mapw_weight in W1, W2. split; intros A; [specialize (W1 A)|specialize (W2 A)]; destruct (xweight net x y) as [e|]; cbn [option_map] in *; try discriminate; [|reflexivity].
      injection W1 as W1. f_equal. apply enc_inj, W1.
  Qed.
  Lemma net_weight x y : weight (finite net) x y = match xweight net x y with Some (Some w) => Some w | _ => None end.
  Proof using Ds.
    destruct net_ok as (_ & N2 & _). unfold weight, xweight. rewrite finite_get. destruct (dget net x) as [row|] eqn:E; cbn [option_map]; [|reflexivity]. apply dget_fin, (N2 x). apply dget_Some_In, E.
  Qed.
  Lemma net_finite x y : (adjacent L x y -> weight (finite net) x y = D x y) /\ (~ adjacent L x y -> weight (finite net) x y = None).
  Proof using Ds. destruct net_ok as (_ & _ & _ & _ & W). destruct (W x y) as (W1 & W2). rewrite net_weight. split; intros A; [rewrite (W1 A)|rewrite (W2 A)]; [destruct (D x y); reflexivity|reflexivity]. Qed.
  Lemma adj_sym x y : adjacent L x y <-> adjacent L y x. Proof using Type. unfold adjacent. tauto. Qed.
  Lemma adj_dec x y : adjacent L x y \/ ~ adjacent L x y.
  Proof using Type.
    destruct (in_dec (fun a b : Z * Z => ltac:(decide equality; apply Z.eq_dec) : {a = b} + {a <> b}) (x, y) L) as [I|I]; [left; left; exact I|].
    destruct (in_dec (fun a b : Z * Z => ltac:(decide equality; apply Z.eq_dec) : {a = b} + {a <> b}) (y, x) L) as [J|J]; [left; right; exact J|]. right. intros [A|A]; contradiction.
  Qed.
  Lemma net_undirected : undirected (finite net).
  Proof using Ds.
    destruct net_ok as (N1 & N2 & N3 & N4 & W). split; [change (map fst (finite net)) with (dkeys (finite net)); rewrite finite_keys; exact N1|]. split; [|split].
    - intros u a I. unfold finite in I. apply in_map_iff in I as ((u', row) & E & I). injection E as <- <-. cbn [snd]. apply fin_NoDup, (N2 u' row I).
    - intros u v (w & Ew). change (In v (dkeys (finite net))). rewrite finite_keys. apply N4. destruct (adj_dec u v) as [A|A]; [exists u; apply adj_sym, A|]. rewrite (proj2 (net_finite u v) A) in Ew. discriminate.
    - intros u v. destruct (adj_dec u v) as [A|A].
      + rewrite (proj1 (net_finite u v) A), (proj1 (net_finite v u) (proj1 (adj_sym u v) A)). apply Ds.
      + rewrite (proj2 (net_finite u v) A), (proj2 (net_finite v u)); [reflexivity|]. intros B. apply A, adj_sym, B.
  Qed.
  Lemma net_vertex x : vertex (finite net) x <-> ends L x.
  Proof using Ds. unfold vertex. change (map fst (finite net)) with (dkeys (finite net)). rewrite finite_keys. apply net_ok. Qed.
  Lemma net_prim W T : prim (finite net) None = Ret (W, T) -> xprim net = Ret (Some W, T).
  Proof using Ds. destruct net_ok as (N1 & N2 & N3 & _). apply xprim_eq; assumption. Qed.
End Network.
