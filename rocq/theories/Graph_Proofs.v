(** * Graph operations *)
From Coq Require Import ZArith List Bool Lia Sorting.Permutation.
From Verif Require Import Base Py Lists Lists2 Dict Graph_Model Graph_Spec.
Import ListNotations.
Open Scope Z_scope.

Definition wfd (g : graph) : Prop := NoDup (dkeys g) /\ forall u a, dget g u = Some a -> NoDup (dkeys a).

Lemma wfd_In (g : graph) : NoDup (dkeys g) -> ((forall u a, In (u, a) g -> NoDup (map fst a)) <-> forall u a, dget g u = Some a -> NoDup (dkeys a)).
Proof.
  intros N. split; intros H u a X; apply (H u a); [apply dget_Some_In, X|apply dget_In; [exact N|exact X]].
Qed.

Lemma undirected_wfd g : undirected g -> wfd g.
Proof. intros (N & I & _). split; [exact N|]. apply wfd_In; [exact N|exact I]. Qed.

Lemma undirected_intro g : wfd g -> (forall u v, edge g u v -> vertex g v) -> (forall u v, weight g u v = weight g v u) -> undirected g.
Proof. intros (N & I) H1 H2. split; [exact N|]. split; [apply wfd_In; [exact N|exact I]|]. split; assumption. Qed.

Lemma vertex_dget g u : vertex g u <-> exists a, dget g u = Some a.
Proof. apply dget_key. Qed.

Lemma edge_vertex g u v : edge g u v -> vertex g u.
Proof. intros (w & H). unfold weight in H. destruct (dget g u) as [a|] eqn:E; [|discriminate]. apply vertex_dget. eauto. Qed.

Lemma weight_dset g a d u v : weight (dset g a d) u v = if a =? u then dget d v else weight g u v.
Proof. unfold weight. rewrite dget_dset. destruct (a =? u); reflexivity. Qed.

Lemma vertex_dset g a d x : vertex (dset g a d) x <-> vertex g x \/ x = a.
Proof. apply dkeys_dset_In. Qed.

Lemma wfd_dset g a d : wfd g -> NoDup (dkeys d) -> wfd (dset g a d).
Proof.
  intros (N & I) Hd. split; [apply dset_NoDup, N|]. intros u b. rewrite dget_dset. destruct (a =? u); [|apply I].
  intros E. injection E as <-. exact Hd.
Qed.

(** ** add_vertex *)
Lemma add_vertex_wfd g u : wfd g -> wfd (add_vertex g u).
Proof. intros H. unfold add_vertex. destruct (dmem g u); [exact H|]. apply wfd_dset; [exact H|constructor]. Qed.

Lemma add_vertex_vertex g u x : vertex (add_vertex g u) x <-> vertex g x \/ x = u.
Proof.
  unfold add_vertex. destruct (dmem g u) eqn:E; [|apply vertex_dset]. apply dmem_In in E. split; [auto|].
  intros [H | ->]; [exact H|exact E].
Qed.

Lemma dmem_false {V} (d : list (Z * V)) k : dmem d k = false <-> dget d k = None.
Proof. unfold dmem. destruct (dget d k); split; congruence. Qed.

Lemma dmem_true {V} (d : list (Z * V)) k : dmem d k = true <-> exists v, dget d k = Some v.
Proof. unfold dmem. destruct (dget d k); split; eauto; try congruence. intros (v & H). discriminate. Qed.

Lemma add_vertex_weight g u x y : weight (add_vertex g u) x y = weight g x y.
Proof.
  unfold add_vertex. destruct (dmem g u) eqn:E; [reflexivity|]. rewrite weight_dset. destruct (Z.eqb_spec u x) as [->|]; [|reflexivity].
  apply dmem_false in E. unfold weight. rewrite E. reflexivity.
Qed.

Lemma add_vertices_ok l : forall g, wfd g -> wfd (add_vertices g l) /\
  (forall x, vertex (add_vertices g l) x <-> vertex g x \/ In x l) /\ (forall x y, weight (add_vertices g l) x y = weight g x y).
Proof.
  induction l as [|u l IH]; intros g H; cbn [add_vertices fold_left].
  - split; [exact H|]. split; [intros x; cbn [In]; tauto|reflexivity].
  - destruct (IH _ (add_vertex_wfd g u H)) as (A & B & C). split; [exact A|]. split.
    + intros x. fold (add_vertices (add_vertex g u) l). rewrite B, add_vertex_vertex. cbn [In]. intuition.
    + intros x y. fold (add_vertices (add_vertex g u) l). rewrite C. apply add_vertex_weight.
Qed.

(** ** add_edge *)
Lemma add_arc_wfd g a b w : wfd g -> wfd (add_arc g a b w).
Proof.
  intros H. unfold add_arc. destruct (dget g a) as [d|] eqn:E.
  - apply wfd_dset; [exact H|]. apply dset_NoDup. apply H in E. exact E.
  - apply wfd_dset; [exact H|]. repeat constructor. intros [].
Qed.

Lemma add_arc_vertex g a b w x : vertex (add_arc g a b w) x <-> vertex g x \/ x = a.
Proof. unfold add_arc. destruct (dget g a); apply vertex_dset. Qed.

Lemma add_arc_weight g a b w x y : weight (add_arc g a b w) x y = if (a =? x) && (b =? y) then Some w else weight g x y.
Proof.
  unfold add_arc. destruct (dget g a) as [d|] eqn:E; rewrite weight_dset; destruct (Z.eqb_spec a x) as [->|]; try reflexivity; cbn [andb].
  - rewrite dget_dset. unfold weight. rewrite E. reflexivity.
  - cbn [dget]. unfold weight. rewrite E. reflexivity.
Qed.

Lemma add_edge_wfd g u v w : wfd g -> wfd (add_edge g u v w).
Proof. intros H. apply add_arc_wfd, add_arc_wfd, H. Qed.

Lemma add_edge_vertex g u v w x : vertex (add_edge g u v w) x <-> vertex g x \/ x = u \/ x = v.
Proof. unfold add_edge. rewrite !add_arc_vertex. tauto. Qed.

Lemma add_edge_weight g u v w x y :
  (same_pair u v x y -> weight (add_edge g u v w) x y = Some w) /\ (~ same_pair u v x y -> weight (add_edge g u v w) x y = weight g x y).
Proof.
  unfold add_edge, same_pair. rewrite !add_arc_weight.
  destruct (Z.eqb_spec v x), (Z.eqb_spec u y), (Z.eqb_spec u x), (Z.eqb_spec v y); cbn [andb]; (split; [intros H|intros H]); try reflexivity; exfalso; lia.
Qed.

Lemma same_pair_dec u v x y : {same_pair u v x y} + {~ same_pair u v x y}.
Proof.
  unfold same_pair. destruct (Z.eq_dec x u), (Z.eq_dec y v), (Z.eq_dec x v), (Z.eq_dec y u); try (left; lia); right; lia.
Qed.

Lemma same_pair_sym u v x y : same_pair u v x y <-> same_pair u v y x.
Proof. unfold same_pair. tauto. Qed.

Lemma edge_weight g u v : edge g u v <-> weight g u v <> None.
Proof. unfold edge. destruct (weight g u v); split; try congruence; eauto. intros (w & H). discriminate. Qed.

Lemma add_edge_undirected g u v w : undirected g -> undirected (add_edge g u v w).
Proof.
  intros H. pose proof (undirected_wfd g H) as Hw. destruct H as (_ & _ & H1 & H2).
  apply undirected_intro; [apply add_edge_wfd, Hw| |].
  - intros x y Hxy. apply add_edge_vertex. destruct (same_pair_dec u v x y) as [S|S]; [unfold same_pair in S; tauto|].
    apply edge_weight in Hxy. rewrite (proj2 (add_edge_weight g u v w x y) S) in Hxy. left. apply (H1 x). apply edge_weight, Hxy.
  - intros x y. destruct (same_pair_dec u v x y) as [S|S].
    + rewrite (proj1 (add_edge_weight g u v w x y) S), (proj1 (add_edge_weight g u v w y x)); [reflexivity|apply same_pair_sym, S].
    + rewrite (proj2 (add_edge_weight g u v w x y) S), (proj2 (add_edge_weight g u v w y x)); [apply H2|rewrite same_pair_sym; exact S].
Qed.

Lemma add_vertex_undirected g u : undirected g -> undirected (add_vertex g u).
Proof.
  intros H. pose proof (undirected_wfd g H) as Hw. destruct H as (_ & _ & H1 & H2).
  apply undirected_intro; [apply add_vertex_wfd, Hw| |].
  - intros x y (w & Hxy). rewrite add_vertex_weight in Hxy. apply add_vertex_vertex. left. apply (H1 x). exists w. exact Hxy.
  - intros x y. rewrite !add_vertex_weight. apply H2.
Qed.

(** ** delete_vertex *)
Lemma dget_map {V W} (F : V -> W) (g : list (Z * V)) k : dget (map (fun va => (fst va, F (snd va))) g) k = option_map F (dget g k).
Proof. induction g as [|[a d] g IH]; [reflexivity|]. cbn [map dget fst snd]. destruct (a =? k); [reflexivity|exact IH]. Qed.

Lemma dkeys_map {V W} (F : V -> W) (g : list (Z * V)) : dkeys (map (fun va => (fst va, F (snd va))) g) = dkeys g.
Proof. unfold dkeys. rewrite map_map. apply map_ext. reflexivity. Qed.

Lemma dkeys_ddel {V} (g : list (Z * V)) u x : NoDup (dkeys g) -> In x (dkeys (ddel g u)) <-> In x (dkeys g) /\ x <> u.
Proof.
  intros N. rewrite !dget_key. rewrite dget_ddel by exact N. destruct (Z.eqb_spec u x) as [->|Hne].
  - split; [intros (v & H); discriminate|intros (_ & H); congruence].
  - split; [intros H; split; [exact H|congruence]|intros (H & _); exact H].
Qed.

Lemma delete_vertex_ok g u : wfd g -> wfd (delete_vertex g u) /\
  (forall x, vertex (delete_vertex g u) x <-> vertex g x /\ x <> u) /\
  ((forall x y, edge g x y -> vertex g y) ->
   forall x y, weight (delete_vertex g u) x y = if (x =? u) || (y =? u) then None else weight g x y).
Proof.
  intros (N & I). unfold delete_vertex. destruct (dmem g u) eqn:E.
  - pose proof (ddel_NoDup g u N) as N'. split; [|split].
    + split; [rewrite (dkeys_map (fun d => ddel d u)); exact N'|]. intros x a. rewrite (dget_map (fun d => ddel d u)).
      rewrite dget_ddel by exact N. destruct (u =? x); [discriminate|]. destruct (dget g x) as [d|] eqn:Ed; [|discriminate].
      intros X. injection X as <-. apply ddel_NoDup. apply (I x). exact Ed.
    + intros x. unfold vertex. rewrite <- (dkeys_ddel g u x N). pose proof (dkeys_map (fun d : list (Z * Z) => ddel d u) (ddel g u)) as K. unfold dkeys in *. rewrite K. reflexivity.
    + intros _ x y. unfold weight. rewrite (dget_map (fun d => ddel d u)), dget_ddel by exact N. rewrite (Z.eqb_sym u x).
      destruct (Z.eqb_spec x u); cbn [orb option_map]; [reflexivity|]. destruct (dget g x) as [d|] eqn:Ed; cbn [option_map]; [|destruct (y =? u); reflexivity].
      rewrite dget_ddel by (apply (I x); exact Ed). rewrite (Z.eqb_sym u y). destruct (y =? u); reflexivity.
  - assert (Nu : ~ vertex g u) by (intros H; apply dmem_In in H; congruence). split; [split; assumption|]. split.
    + intros x. split; [|tauto]. intros H. split; [exact H|]. intros ->. contradiction.
    + intros C x y. destruct (weight g x y) as [w|] eqn:W; [|destruct (_ || _); reflexivity].
      assert (Exy : edge g x y) by (exists w; exact W).
      destruct (Z.eqb_spec x u) as [->|]; [exfalso; apply Nu; eapply edge_vertex; exact Exy|].
      destruct (Z.eqb_spec y u) as [->|]; [exfalso; apply Nu; eapply C; exact Exy|]. reflexivity.
Qed.

Lemma delete_vertex_undirected g u : undirected g -> undirected (delete_vertex g u).
Proof.
  intros H. pose proof (undirected_wfd g H) as Hw. destruct H as (_ & _ & H1 & H2).
  destruct (delete_vertex_ok g u Hw) as (A & B & C). specialize (C H1). apply undirected_intro; [exact A| |].
  - intros x y (w & Hxy). rewrite C in Hxy. destruct (Z.eqb_spec x u), (Z.eqb_spec y u); cbn [orb] in Hxy; try discriminate.
    apply B. split; [|assumption]. apply (H1 x). exists w. exact Hxy.
  - intros x y. rewrite !C, H2. rewrite (orb_comm (x =? u)). reflexivity.
Qed.

Lemma delete_vertices_ok l : forall g, undirected g -> undirected (delete_vertices g l) /\
  (forall x, vertex (delete_vertices g l) x <-> vertex g x /\ ~ In x l) /\
  (forall x y, (In x l \/ In y l -> weight (delete_vertices g l) x y = None) /\
               (~ In x l -> ~ In y l -> weight (delete_vertices g l) x y = weight g x y)).
Proof.
  induction l as [|u l IH]; intros g H; cbn [delete_vertices fold_left].
  - split; [exact H|]. split; [intros x; cbn [In]; tauto|]. intros x y. cbn [In]. split; [tauto|reflexivity].
  - destruct (IH _ (delete_vertex_undirected g u H)) as (A & B & C). fold (delete_vertices (delete_vertex g u) l). split; [exact A|].
    destruct (delete_vertex_ok g u (undirected_wfd g H)) as (_ & D & E). destruct H as (_ & _ & H1 & H2). specialize (E H1). split.
    + intros x. rewrite B, D. cbn [In]. intuition.
    + intros x y. destruct (C x y) as (C1 & C2). split.
      * intros Hx. destruct (in_dec Z.eq_dec x l) as [i|i]; [apply C1; auto|]. destruct (in_dec Z.eq_dec y l) as [j|j]; [apply C1; auto|].
        rewrite C2 by assumption. rewrite E. destruct (Z.eqb_spec x u), (Z.eqb_spec y u); cbn [orb]; try reflexivity. cbn [In] in Hx. exfalso. intuition congruence.
      * intros Hx Hy. cbn [In] in *. rewrite C2, E by tauto. destruct (Z.eqb_spec x u), (Z.eqb_spec y u); cbn [orb]; try reflexivity; exfalso; intuition congruence.
Qed.

(** ** delete_edge *)
Lemma del_arc_wfd g u v : wfd g -> wfd (del_arc g u v).
Proof.
  intros H. unfold del_arc. destruct (dget g u) as [d|] eqn:E; [|exact H]. apply wfd_dset; [exact H|]. apply ddel_NoDup. apply H in E. exact E.
Qed.

Lemma del_arc_vertex g u v x : vertex (del_arc g u v) x <-> vertex g x.
Proof.
  unfold del_arc. destruct (dget g u) as [d|] eqn:E; [|reflexivity]. rewrite vertex_dset. split; [|auto]. intros [H | ->]; [exact H|]. apply vertex_dget. eauto.
Qed.

Lemma del_arc_weight g u v x y : wfd g -> weight (del_arc g u v) x y = if (u =? x) && (v =? y) then None else weight g x y.
Proof.
  intros (_ & I). unfold del_arc. destruct (dget g u) as [d|] eqn:E.
  - rewrite weight_dset. destruct (Z.eqb_spec u x) as [->|]; cbn [andb]; [|reflexivity]. rewrite dget_ddel by (apply (I x), E).
    unfold weight. rewrite E. reflexivity.
  - destruct (Z.eqb_spec u x) as [->|]; cbn [andb]; [|reflexivity]. unfold weight. rewrite E. destruct (v =? y); reflexivity.
Qed.

Lemma delete_edge_vertex g u v x : vertex (delete_edge g u v) x <-> vertex g x.
Proof. unfold delete_edge. rewrite !del_arc_vertex. reflexivity. Qed.

Lemma delete_edge_weight g u v x y : wfd g ->
  (same_pair u v x y -> weight (delete_edge g u v) x y = None) /\ (~ same_pair u v x y -> weight (delete_edge g u v) x y = weight g x y).
Proof.
  intros H. unfold delete_edge, same_pair. rewrite !del_arc_weight by (try apply del_arc_wfd; exact H).
  destruct (Z.eqb_spec u x), (Z.eqb_spec v y), (Z.eqb_spec v x), (Z.eqb_spec u y); cbn [andb]; (split; intros X); try reflexivity; exfalso; lia.
Qed.

Lemma delete_edge_undirected g u v : undirected g -> undirected (delete_edge g u v).
Proof.
  intros H. pose proof (undirected_wfd g H) as Hw. destruct H as (_ & _ & H1 & H2).
  apply undirected_intro; [apply del_arc_wfd, del_arc_wfd, Hw| |].
  - intros x y Hxy. apply delete_edge_vertex. apply edge_weight in Hxy. destruct (same_pair_dec u v x y) as [S|S].
    + rewrite (proj1 (delete_edge_weight g u v x y Hw) S) in Hxy. congruence.
    + rewrite (proj2 (delete_edge_weight g u v x y Hw) S) in Hxy. apply (H1 x), edge_weight, Hxy.
  - intros x y. destruct (same_pair_dec u v x y) as [S|S].
    + rewrite (proj1 (delete_edge_weight g u v x y Hw) S), (proj1 (delete_edge_weight g u v y x Hw)); [reflexivity|apply same_pair_sym, S].
    + rewrite (proj2 (delete_edge_weight g u v x y Hw) S), (proj2 (delete_edge_weight g u v y x Hw)); [apply H2|rewrite same_pair_sym; exact S].
Qed.

(** ** add_edges *)
Lemma add_edges_ok l : forall g, undirected g -> undirected (add_edges g l) /\
  (forall x, vertex (add_edges g l) x <-> vertex g x \/ exists u v w, In (u, v, w) l /\ (x = u \/ x = v)) /\
  (forall x y, (forall l1 u v w l2, l = l1 ++ (u, v, w) :: l2 -> same_pair u v x y ->
                  (forall u' v' w', In (u', v', w') l2 -> ~ same_pair u' v' x y) -> weight (add_edges g l) x y = Some w) /\
               ((forall u v w, In (u, v, w) l -> ~ same_pair u v x y) -> weight (add_edges g l) x y = weight g x y)).
Proof.
  induction l as [|[[u v] w] l IH]; intros g H; cbn [add_edges fold_left].
  - split; [exact H|]. split; [|intros x y; split; [|reflexivity]].
    + intros x. split; [auto|]. intros [Hx|(u & v & w & [] & _)]. exact Hx.
    + intros l1 u v w l2 E. destruct l1; discriminate.
  - destruct (IH _ (add_edge_undirected g u v w H)) as (A & B & C). fold (add_edges (add_edge g u v w) l). split; [exact A|]. split.
    + intros x. rewrite B, add_edge_vertex. split.
      * intros [[Hx|Hx]|(a & b & c & Hin & Hx)]; [auto| |].
        -- right. exists u, v, w. split; [left; reflexivity|exact Hx].
        -- right. exists a, b, c. split; [right; exact Hin|exact Hx].
      * intros [Hx|(a & b & c & [E|Hin] & Hx)]; [auto| |].
        -- injection E as -> -> ->. auto.
        -- right. exists a, b, c. auto.
    + intros x y. destruct (C x y) as (C1 & C2). split.
      * intros l1 a b c l2 E S F. destruct l1 as [|e l1]; cbn [app] in E.
        -- injection E as -> -> -> ->. rewrite C2 by exact F. apply add_edge_weight, S.
        -- injection E as _ E. apply (C1 l1 a b c l2 E S F).
      * intros F. rewrite C2 by (intros a b c Hin; apply (F a b c); right; exact Hin). apply add_edge_weight. apply (F u v w). left. reflexivity.
Qed.

(** ** Histories *)
Definition apply_op (g : graph) (op : gop) : graph :=
  match op with
  | OpAddVertex u => add_vertex g u
  | OpAddVertices l => add_vertices g l
  | OpDeleteVertex u => delete_vertex g u
  | OpDeleteVertices l => delete_vertices g l
  | OpAddEdge u v w => add_edge g u v w
  | OpAddEdges l => add_edges g l
  | OpDeleteEdge u v => delete_edge g u v
  end.

Lemma apply_op_ok g op : undirected g -> undirected (apply_op g op) /\ effect op (vertex g) (weight g) (vertex (apply_op g op)) (weight (apply_op g op)).
Proof.
  intros H. pose proof (undirected_wfd g H) as Hw. destruct op as [u|l|u|l|u v w|l|u v]; cbn [apply_op effect].
  - split; [apply add_vertex_undirected, H|]. split; [intros x; apply add_vertex_vertex|intros x y; apply add_vertex_weight].
  - split.
    + revert g H Hw. induction l as [|u l IH]; intros g H Hw; [exact H|]. cbn [add_vertices fold_left]. apply IH; [apply add_vertex_undirected, H|apply add_vertex_wfd, Hw].
    + destruct (add_vertices_ok l g Hw) as (_ & B & C). split; assumption.
  - split; [apply delete_vertex_undirected, H|]. destruct (delete_vertex_ok g u Hw) as (_ & B & C). split; [exact B|].
    destruct H as (_ & _ & H1 & _). specialize (C H1). intros x y. rewrite C. split.
    + intros [-> | ->]; rewrite Z.eqb_refl; [reflexivity|]. rewrite orb_true_r. reflexivity.
    + intros Hx Hy. destruct (Z.eqb_spec x u), (Z.eqb_spec y u); try contradiction. reflexivity.
  - destruct (delete_vertices_ok l g H) as (A & B & C). split; [exact A|]. split; assumption.
  - split; [apply add_edge_undirected, H|]. split; [intros x; apply add_edge_vertex|intros x y; apply add_edge_weight].
  - destruct (add_edges_ok l g H) as (A & B & C). split; [exact A|]. split; assumption.
  - split; [apply delete_edge_undirected, H|]. split; [intros x; apply delete_edge_vertex|intros x y; apply delete_edge_weight, Hw].
Qed.

Lemma empty_undirected : undirected empty_graph.
Proof.
  apply undirected_intro.
  - split; [constructor|]. intros u a H. discriminate.
  - intros u v (w & H). discriminate.
  - reflexivity.
Qed.

Lemma history_undirected ops : undirected (fold_left apply_op ops empty_graph).
Proof.
  assert (G : forall g, undirected g -> undirected (fold_left apply_op ops g)).
  { induction ops as [|op ops IH]; intros g H; [exact H|]. cbn [fold_left]. apply IH. apply apply_op_ok, H. }
  apply G, empty_undirected.
Qed.
