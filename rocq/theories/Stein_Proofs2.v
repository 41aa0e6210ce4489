(** * Proofs about Steiner trees: distances, the paths found by dijkstra, graphs made of edges *)
From Coq Require Import ZArith List Lia Bool Permutation.
From Verif Require Import Base Py Dict Lists Lists2 Graph_Model Graph_Spec Graph_Proofs Graph_Proofs2 UF_Model UF_Spec UF_Proofs Trav_Model Trav_Spec Trav_Proofs Trav_Proofs2
  Paths_Model Paths_Spec Paths_Proofs Paths_Proofs2 Paths_Proofs4 Paths_Proofs6 Paths_Proofs7 MST_Model MST_Spec MST_Proofs MST_Proofs2 MST_Props Stein_Model Stein_Spec Stein_Proofs.
Import ListNotations.
Open Scope Z_scope.

(** ** Every vertex has an entry in the predecessors *)
Lemma relax_keys {H} (push : H -> Z -> Z -> outcome H) u w row : forall d p h d' p' h',
  relax push u w row (d, p, h) = Ret (d', p', h') -> forall k, In k (dkeys p) -> In k (dkeys p').
Proof.
  unfold relax. induction row as [|(v, c) row IH]; intros d p h d' p' h' E k Hk.
  - cbn in E. injection E as <- <- <-. exact Hk.
  - cbn [foldM] in E. destruct (dgetM d v) as [dv|e|]; [|discriminate|discriminate]. cbn [bind] in E.
    destruct (ltx (w + c) dv).
    + destruct (push h (w + c) v) as [h2|e|]; [|discriminate|discriminate]. cbn [bind] in E.
      apply (IH _ _ _ _ _ _ E). apply dkeys_dset_In. left. exact Hk.
    + cbn [bind] in E. apply (IH _ _ _ _ _ _ E k Hk).
Qed.

Lemma dij_keys g : forall fuel d p h vis d' p', dij_loop g fuel d p h vis = Ret (d', p') -> forall k, In k (dkeys p) -> In k (dkeys p').
Proof.
  induction fuel as [|fuel IH]; intros d p h vis d' p' E k Hk; destruct h as [|x h]; cbn [dij_loop] in E; try discriminate; try (injection E as <- <-; exact Hk).
  destruct (pop_min pair_ltb x h) as [[w u] r]. destruct (mem u vis); [apply (IH _ _ _ _ _ _ E k Hk)|].
  destruct (g_adj g u) as [row|e|]; [|discriminate|discriminate]. cbn [bind] in E.
  destruct (relax _ u w row (d, p, r)) as [[[d2 p2] r2]|e|] eqn:Er; [|discriminate|discriminate]. cbn [bind] in E.
  apply (IH _ _ _ _ _ _ E k). apply (relax_keys _ _ _ _ _ _ _ _ _ _ Er k Hk).
Qed.

(** ** Paths as lists of edges, the last edge first *)
Inductive chain (prev : list (Z * option Z)) (s : Z) : Z -> list (Z * Z) -> Prop :=
| ch_root : chain prev s s []
| ch_step v p es : dget prev v = Some (Some p) -> chain prev s p es -> chain prev s v ((p, v) :: es).

Section Chain.
  Context (prev : list (Z * option Z)) (s : Z).
  Hypothesis root : dget prev s = Some None.

  Lemma chain_fun v es : chain prev s v es -> forall es', chain prev s v es' -> es = es'.
  Proof using All.
    induction 1 as [|v p es E _ IH]; intros es' H'; inversion H' as [|? p' es2 E' C']; subst; try congruence.
    rewrite E in E'. injection E' as <-. f_equal. apply IH. exact C'.
  Qed.

  Lemma chain_from v es a : chain prev s v es -> In a (map fst es) -> exists es1 es2, chain prev s a es2 /\ (length es2 < length es)%nat /\ es = es1 ++ es2.
  Proof using Type.
    induction 1 as [|v p es E C IH]; [intros []|]. cbn [map fst]. intros [<-|I].
    - exists [(p, v)], es. split; [exact C|]. split; [cbn; lia|reflexivity].
    - destruct (IH I) as (es1 & es2 & C2 & L & ->). exists ((p, v) :: es1), es2. split; [exact C2|]. split; [cbn; lia|reflexivity].
  Qed.

  Lemma chain_nodup v es : chain prev s v es -> NoDup (map fst es).
  Proof using All.
    induction 1 as [|v p es E C IH]; [constructor|]. cbn [map fst]. constructor; [|exact IH]. intros I.
    destruct (chain_from p es p C I) as (es1 & es2 & C2 & L & Es). rewrite (chain_fun p es C es2 C2) in L. lia.
  Qed.

  Lemma chain_linked v es : chain prev s v es -> linked es s v.
  Proof using Type.
    induction 1 as [|v p es E C IH]; [apply linked_refl|]. eapply linked_trans; [eapply linked_sub; [|exact IH]; intros e He; right; exact He|].
    apply linked_edge. left. reflexivity.
  Qed.

  Lemma chain_ends v es x y : chain prev s v es -> In (x, y) es -> linked es s x /\ linked es s y.
  Proof using Type.
    induction 1 as [|v p es E C IH]; [intros []|]. intros [Ee|I].
    - injection Ee as <- <-. assert (Q : linked ((p, v) :: es) s p) by (eapply linked_sub; [|apply chain_linked, C]; intros e He; right; exact He).
      split; [exact Q|]. eapply linked_trans; [exact Q|apply linked_edge; left; reflexivity].
    - destruct (IH I) as (H1 & H2). split; (eapply linked_sub; [|eassumption]; intros e He; right; exact He).
  Qed.

  (** The second ends are v and first ends. *)
  Lemma chain_second v es x y : chain prev s v es -> In (x, y) es -> y = v \/ In y (map fst es).
  Proof using Type.
    induction 1 as [|v p es E C IH]; [intros []|]. intros [Ee|I]; [injection Ee as <- <-; left; reflexivity|].
    right. cbn [map fst]. destruct (IH I) as [->|Q]; [left; reflexivity|right; exact Q].
  Qed.

  Lemma chain_source v es : chain prev s v es -> v <> s -> In s (map fst es) /\ exists p, In (p, v) es.
  Proof using Type.
    intros C. split; [|destruct C as [|v p es E C]; [congruence|exists p; left; reflexivity]].
    induction C as [|v p es E C IH]; [congruence|]. cbn [map fst]. destruct (Z.eq_dec p s) as [->|N]; [left; reflexivity|right; apply IH, N].
  Qed.

  Lemma walk_back_eq {A} (f : A -> Z -> Z -> outcome A) v es : chain prev s v es -> forall fuel a acc, dget prev v = Some a -> (length es <= fuel)%nat ->
    walk_back prev f fuel a v acc = foldM (fun acc e => f acc (fst e) (snd e)) es acc.
  Proof using All.
    induction 1 as [|v p es E C IH]; intros fuel a acc Ea L.
    - rewrite root in Ea. injection Ea as <-. destruct fuel; reflexivity.
    - rewrite E in Ea. injection Ea as <-. destruct fuel as [|fuel]; [cbn in L; lia|]. cbn [walk_back foldM fst snd].
      destruct (f acc p v) as [acc'|e|]; [|reflexivity|reflexivity]. cbn [bind].
      assert (exists a', dget prev p = Some a') as (a' & Ea').
      { destruct C as [|p q es2 E2 C2]; [exists None; exact root|exists (Some q); exact E2]. }
      unfold dgetM. rewrite Ea'. cbn [bind]. apply IH; [exact Ea'|cbn in L; lia].
  Qed.
End Chain.

Lemma prev_path_chain g prev s v W : prev_path g prev s v W -> exists es, chain prev s v es /\ total_weight g es W.
Proof.
  induction 1 as [|v p c W E Hc _ (es & C & TW)]; [exists []; split; constructor|].
  exists ((p, v) :: es). split; [constructor; assumption|]. rewrite Z.add_comm. constructor; assumption.
Qed.

Lemma chain_walk g prev s v es : chain prev s v es -> forall W, total_weight g es W -> wwalk g s v W.
Proof.
  induction 1 as [|v p es E C IH]; intros W TW; inversion TW; subst; [constructor|]. rewrite Z.add_comm. apply wwalk_snoc with p; [apply IH; assumption|assumption].
Qed.

Section Dist.
  Context (g : graph).
  Hypothesis Hg : undirected g.
  Hypothesis Hn : nonneg g.

  (** The distance, as dijkstra computes it. *)
  Definition dd (u v : Z) : Z := match dijkstra g u with Ret (dist, _) => match dget dist v with Some (Some x) => x | _ => 0 end | _ => 0 end.

  Lemma dij_ok s : vertex g s -> exists dist prev, dijkstra g s = Ret (dist, prev) /\ dget prev s = Some None /\
    (forall v, reachable g s v -> dget dist v = Some (Some (dd s v)) /\ shortest g s v (dd s v) /\
       exists es a, chain prev s v es /\ total_weight g es (dd s v) /\ (length es <= length g)%nat /\ dget prev v = Some a).
  Proof using All.
    intros Hs. destruct (dijkstra_ok g s Hg Hs Hn) as (dist & prev & E & F). exists dist, prev. split; [exact E|].
    destruct (finished_ok g s Hn dist prev F) as (ED & SP1 & SP2 & SP3).
    assert (HK : forall v, vertex g v -> exists a, dget prev v = Some a).
    { intros v Hv. apply dget_key. unfold dijkstra in E. destruct (dmem g s); [|discriminate].
      apply (dij_keys g _ _ _ _ _ _ _ E). unfold all_keys, dkeys. rewrite map_map, map_id. exact Hv. }
    assert (Root : dget prev s = Some None).
    { destruct (HK s Hs) as ([p|] & Ea); [destruct (SP1 p Ea)|exact Ea]. }
    split; [exact Root|]. intros v R. apply (reach_wwalk g s) in R as (W & R).
    assert (Hv : vertex g v) by (destruct R as [|a b W c _ Hc]; [exact Hs|destruct Hg as (_ & _ & C & _); apply (C a b); exists c; exact Hc]).
    destruct (ED v Hv) as (d & Ed & Hd). destruct d as [d|]; [|destruct (Hd W R)].
    assert (Edd : dd s v = d) by (unfold dd; rewrite E, Ed; reflexivity). rewrite Edd. split; [exact Ed|]. split; [exact Hd|].
    destruct (prev_path_chain g prev s v d (SP3 v d Hd)) as (es & C & TW). destruct (HK v Hv) as (a & Ea). exists es, a.
    split; [exact C|]. split; [exact TW|]. split; [|exact Ea].
    rewrite <- (map_length fst es), <- (map_length fst g). apply NoDup_incl_length; [apply (chain_nodup prev s Root v es C)|].
    intros x Hx. apply in_map_iff in Hx as ((x', y) & <- & I). cbn [fst]. destruct (tw_edge g es d x' y TW I) as (c & Hc).
    destruct Hg as (_ & _ & Cl & Sy). apply (Cl y x'). exists c. rewrite <- Sy. exact Hc.
  Qed.

  Lemma dd_ok s v : vertex g s -> reachable g s v -> shortest g s v (dd s v).
  Proof using All. intros Hs R. destruct (dij_ok s Hs) as (dist & prev & _ & _ & H). apply H, R. Qed.

  Lemma reach_vertex s v : vertex g s -> reachable g s v -> vertex g v.
  Proof using Hg. intros Hs (n & H). destruct H as [|n a b _ Ed]; [exact Hs|destruct Hg as (_ & _ & C & _); apply (C a b), Ed]. Qed.

  (** The vertices that can be reached from r0 form a metric space. *)
  Context (r0 : Z).
  Hypothesis Hr0 : vertex g r0.
  Definition UU x := reachable g r0 x.

  Lemma UU_reach x y : UU x -> UU y -> reachable g x y.
  Proof using Hg. intros Hx Hy. eapply reach_trans; [apply (reach_sym g Hg), Hx|exact Hy]. Qed.
  Lemma UU_vertex x : UU x -> vertex g x.
  Proof using Hg Hr0. apply reach_vertex, Hr0. Qed.
  Lemma UU_dd x y : UU x -> UU y -> shortest g x y (dd x y).
  Proof using All. intros Hx Hy. apply dd_ok; [apply UU_vertex, Hx|apply UU_reach; assumption]. Qed.
  Lemma dd_refl x : UU x -> dd x x = 0.
  Proof using All. intros Hx. destruct (UU_dd x x Hx Hx) as (Wk & M). assert (A := M 0 (wwalk_nil g x)). assert (B := wwalk_nonneg g Hn x x _ Wk). lia. Qed.
  Lemma dd_sym x y : UU x -> UU y -> dd x y = dd y x.
  Proof using All.
    intros Hx Hy. destruct (UU_dd x y Hx Hy) as (Wk & M), (UU_dd y x Hy Hx) as (Wk' & M').
    assert (A := M _ (wwalk_rev g Hg _ _ _ Wk')). assert (B := M' _ (wwalk_rev g Hg _ _ _ Wk)). lia.
  Qed.
  Lemma dd_tri x y z : UU x -> UU y -> UU z -> dd x z <= dd x y + dd y z.
  Proof using All.
    intros Hx Hy Hz. destruct (UU_dd x z Hx Hz) as (_ & M). apply M. apply wwalk_app with y; [apply (UU_dd x y Hx Hy)|apply (UU_dd y z Hy Hz)].
  Qed.
  Lemma dd_edge u v w : weight g u v = Some w -> UU u -> UU v -> dd u v <= w.
  Proof using All. intros Hw Hu Hv. apply (UU_dd u v Hu Hv). replace w with (0 + w) by lia. apply wwalk_snoc with u; [constructor|exact Hw]. Qed.
End Dist.

(** ** A graph made of edges *)
Definition adjacent (L : list (Z * Z)) x y := In (x, y) L \/ In (y, x) L.
Definition ends (L : list (Z * Z)) x := exists y, adjacent L x y.

Lemma add_edges_sub (F : Z -> Z -> Z) L : (forall x y, F x y = F y x) ->
  undirected (add_edges empty_graph (map (fun e => (fst e, snd e, F (fst e) (snd e))) L)) /\
  (forall x, vertex (add_edges empty_graph (map (fun e => (fst e, snd e, F (fst e) (snd e))) L)) x <-> ends L x) /\
  (forall x y, (adjacent L x y -> weight (add_edges empty_graph (map (fun e => (fst e, snd e, F (fst e) (snd e))) L)) x y = Some (F x y)) /\
               (~ adjacent L x y -> weight (add_edges empty_graph (map (fun e => (fst e, snd e, F (fst e) (snd e))) L)) x y = None)).
Proof.
  intros Fs. set (M := map _ L).
  assert (HM : forall u v w, In (u, v, w) M <-> In (u, v) L /\ w = F u v).
  { intros u v w. unfold M. rewrite in_map_iff. split; [intros ((a, b) & E & I); injection E as <- <- <-; auto|intros (I & ->); exists (u, v); auto]. }
  assert (U0 : undirected empty_graph) by exact (history_undirected []).
  destruct (add_edges_fun F M empty_graph U0 Fs ltac:(intros u v w I; apply HM, I)) as (A & B & C). split; [exact A|]. split.
  - intros x. rewrite B. split.
    + intros [[]|(u & v & w & I & Or)]. apply HM in I as (I & _). destruct Or as [->| ->]; [exists v; left; exact I|exists u; right; exact I].
    + intros (y & [I|I]); right; [exists x, y, (F x y)|exists y, x, (F y x)]; (split; [apply HM; auto|auto]).
  - intros x y. destruct (C x y) as (C1 & C2). split.
    + intros [I|I]; apply C1; [exists x, y, (F x y)|exists y, x, (F y x)]; (split; [apply HM; auto|unfold same_pair; auto]).
    + intros N. rewrite C2; [reflexivity|]. intros u v w I [(-> & ->)|(-> & ->)]; apply HM in I as (I & _); apply N; [left|right]; exact I.
Qed.

Lemma linked_reachable h L u v : undirected h -> (forall x y, In (x, y) L -> edge h x y) -> linked L u v -> reachable h u v.
Proof.
  intros Hh HL Lk. induction Lk as [u v I|u|u v _ IH|u v w _ IH1 _ IH2].
  - exists 1%nat. apply (walk_S h u 0 u v); [constructor|apply HL, I].
  - exists 0%nat. constructor.
  - apply (reach_sym h Hh), IH.
  - eapply reach_trans; eassumption.
Qed.

(** prim without a root, on a connected graph. *)
Lemma prim_all h V L : undirected h -> V <> [] -> NoDup V -> (forall x, vertex h x <-> In x V) -> (forall x y, In (x, y) L -> edge h x y) ->
  (forall u v, In u V -> In v V -> linked L u v) ->
  exists W T, prim h None = Ret (W, T) /\ listed_in_order T /\ minimum_spanning_tree h V T W.
Proof.
  intros Hh Ne N HV HL Lk. rewrite C63_prim_default_root.
  destruct (map fst h) as [|r ks] eqn:Ek.
  { exfalso. destruct V as [|v V]; [congruence|]. assert (Q : vertex h v) by (apply HV; left; reflexivity). unfold vertex in Q. rewrite Ek in Q. destruct Q. }
  assert (Hr : vertex h r) by (unfold vertex; rewrite Ek; left; reflexivity).
  destruct (C63_prim h r Hh Hr) as (W & T & E & Ls & M). exists W, T. split; [exact E|]. split; [exact Ls|]. apply M. split; [exact N|].
  intros v. rewrite <- HV. split; [|apply reach_vertex; assumption]. intros Hv. apply (linked_reachable h L); [exact Hh|exact HL|]. apply Lk; apply HV; assumption.
Qed.
