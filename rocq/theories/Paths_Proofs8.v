(** * floyd_warshall does not look at loops *)
From Coq Require Import ZArith List Lia Bool.
From Verif Require Import Base Py Dict Graph_Spec Graph_Model Graph_Proofs Paths_Spec Paths_Model Paths_Proofs7.
Import ListNotations.
Open Scope Z_scope.

(** The graph without its loops. *)
Definition without_loops (g : list (Z * list (Z * Z))) : list (Z * list (Z * Z)) :=
  map (fun ua => (fst ua, filter (fun vw => negb (fst vw =? fst ua)) (snd ua))) g.

Lemma dget_filter_ne (a : list (Z * Z)) u v : dget (filter (fun vw => negb (fst vw =? u)) a) v = if v =? u then None else dget a v.
Proof.
  induction a as [|[x c] a IH]; cbn [filter dget fst]; [destruct (v =? u); reflexivity|]. destruct (Z.eqb_spec x u) as [->|D]; cbn [negb].
  - rewrite IH. destruct (Z.eqb_spec v u), (Z.eqb_spec u v); congruence.
  - cbn [dget]. destruct (Z.eqb_spec x v); [destruct (Z.eqb_spec v u); [congruence|reflexivity]|exact IH].
Qed.
Lemma dget_without g u : dget (without_loops g) u = match dget g u with Some a => Some (filter (fun vw => negb (fst vw =? u)) a) | None => None end.
Proof. induction g as [|[x a] g IH]; [reflexivity|]. cbn [without_loops map dget fst snd]. destruct (Z.eqb_spec x u) as [->|]; [reflexivity|exact IH]. Qed.
Lemma weight_without g u v : weight (without_loops g) u v = if u =? v then None else weight g u v.
Proof. unfold weight. rewrite dget_without, (Z.eqb_sym u v). destruct (dget g u) as [a|]; [apply dget_filter_ne|destruct (v =? u); reflexivity]. Qed.
Lemma dkeys_without g : dkeys (without_loops g) = dkeys g.
Proof. unfold dkeys, without_loops. rewrite map_map. apply map_ext. reflexivity. Qed.
Lemma vertex_without g v : vertex (without_loops g) v <-> vertex g v.
Proof. unfold vertex. change (In v (dkeys (without_loops g)) <-> In v (dkeys g)). rewrite dkeys_without. reflexivity. Qed.

Lemma undirected_without g : undirected g -> undirected (without_loops g).
Proof.
  intros (N & Na & V & Sy). split; [change (NoDup (dkeys (without_loops g))); rewrite dkeys_without; exact N|]. split; [|split].
  - intros u a H. apply in_map_iff in H as ((u' & a') & E & Hin). cbn [fst snd] in E. injection E as <- <-. specialize (Na u' a' Hin).
    clear - Na. induction a' as [|[x c] a' IH]; [constructor|]. cbn [map fst] in Na. inversion_clear Na as [|? ? N1 N2]. cbn [filter fst]. destruct (negb (x =? u')); [|apply IH, N2].
    cbn [map fst]. constructor; [|apply IH, N2]. intros H. apply N1. apply in_map_iff in H as ((y & d) & E & H). apply filter_In in H as (H & _). apply in_map_iff. exists (y, d). auto.
  - intros u v (w & H). rewrite weight_without in H. destruct (u =? v); [discriminate|]. apply vertex_without, (V u). exists w. exact H.
  - intros u v. rewrite !weight_without, (Z.eqb_sym v u), (Sy u v). reflexivity.
Qed.

Notation fwst := ((Z -> Z -> ext) * (Z -> Z -> option Z))%type.
Definition same (s t : fwst) : Prop := (forall u v, fst s u v = fst t u v) /\ forall u v, snd s u v = snd t u v.

Lemma same_init g : same (fw_init g) (fw_init (without_loops g)).
Proof.
  split; intros u v; unfold fw_init; cbn [fst snd]; destruct (Z.eqb_spec u v) as [|D]; try reflexivity.
  - change (weight g u v = weight (without_loops g) u v). rewrite weight_without. destruct (Z.eqb_spec u v); [contradiction|reflexivity].
  - rewrite dget_without. destruct (dget g u) as [a|]; [|reflexivity]. unfold dmem. rewrite dget_filter_ne. destruct (Z.eqb_spec v u); [congruence|reflexivity].
Qed.

Lemma same_relax u s t vw : same s t -> same (fw_relax u s vw) (fw_relax u t vw).
Proof.
  destruct s as [d p], t as [d' p'], vw as [v w]. intros (H1 & H2). cbn [fst snd] in H1, H2. unfold fw_relax. rewrite !H1. destruct (ltxx _ _); [|split; assumption].
  split; intros a b; cbn [fst snd]; unfold upd2; destruct ((a =? v) && (b =? w)); auto.
Qed.

Definition osame (x y : outcome fwst) : Prop := match x, y with Ret s, Ret t => same s t | Raise e, Raise f => e = f | _, _ => False end.

Lemma same_rounds vs ks : forall s t, same s t -> osame (foldM (fw_round vs) ks s) (foldM (fw_round vs) ks t).
Proof.
  induction ks as [|u ks IH]; intros s t E; [exact E|]. cbn [foldM].
  assert (F : same (fold_left (fw_relax u) (list_prod vs vs) s) (fold_left (fw_relax u) (list_prod vs vs) t)).
  { clear IH. revert s t E. generalize (list_prod vs vs). induction l as [|vw l IH]; intros s t E; [exact E|]. cbn [fold_left]. apply IH, same_relax, E. }
  unfold fw_round at 1 3. destruct E as (E1 & _). pose proof (E1 u u) as Eu. cbv beta in Eu. rewrite Eu. destruct (match fst t u u with Some d => d <? 0 | None => false end); [reflexivity|]. cbn [bind]. apply IH, F.
Qed.

Lemma same_floyd_warshall g : osame (floyd_warshall g) (floyd_warshall (without_loops g)).
Proof. unfold floyd_warshall. rewrite dkeys_without. apply same_rounds, same_init. Qed.

(** Every undirected graph without negative edges between different vertices. *)
Lemma floyd_warshall_loops g : undirected g -> (forall u v c, u <> v -> weight g u v = Some c -> 0 <= c) ->
  exists dist pred, floyd_warshall g = Ret (dist, pred) /\
  forall v w, vertex g v -> vertex g w ->
    match dist v w with Some d => shortest (without_loops g) v w d | None => forall W, ~ wwalk (without_loops g) v w W end /\
    match pred v w with
    | Some x => v <> w /\ exists c dx, weight (without_loops g) x w = Some c /\ dist v x = Some dx /\ dist v w = Some (dx + c)
    | None => v = w \/ dist v w = None
    end.
Proof.
  intros Hg Hn. assert (Nn : nonneg (without_loops g)). { intros u v c H. rewrite weight_without in H. destruct (Z.eqb_spec u v); [discriminate|]. eapply Hn; eassumption. }
  destruct (floyd_warshall_ok (without_loops g) (undirected_without g Hg) Nn) as (d' & p' & E & H). pose proof (same_floyd_warshall g) as S. rewrite E in S. unfold osame in S.
  destruct (floyd_warshall g) as [[d p]| |]; try contradiction. destruct S as (S1 & S2). cbn [fst snd] in S1, S2. exists d, p. split; [reflexivity|].
  intros v w Hv Hw. specialize (H v w (proj2 (vertex_without g v) Hv) (proj2 (vertex_without g w) Hw)). rewrite S1, S2. destruct H as (H1 & H2). split; [exact H1|].
  destruct (p' v w) as [x|]; [|exact H2]. rewrite S1. exact H2.
Qed.
