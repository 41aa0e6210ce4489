(** * Graph objects in a store: programs *)
From Coq Require Import ZArith List Bool Lia.
From Verif Require Import Base Py Lists Lists2 Dict Graph_Model Mob_Proofs Gob_Model Gob_Spec Gob_Proofs.
Import ListNotations.
Open Scope Z_scope.

Lemma upd_same {A} (l : list A) a x : (a < length l)%nat -> nth_error (upd l a x) a = Some x.
Proof. revert a. induction l as [|y l IH]; intros [|a] H; cbn in *; try lia; [reflexivity|]. apply IH. lia. Qed.
Lemma upd_other {A} (l : list A) a b x : b <> a -> nth_error (upd l a x) b = nth_error l b.
Proof. revert a b. induction l as [|y l IH]; intros [|a] [|b] H; cbn; try reflexivity; try lia. apply IH. lia. Qed.
Lemma upd_upd {A} (l : list A) a x y : upd (upd l a x) a y = upd l a y.
Proof. revert a. induction l as [|z l IH]; intros [|a]; cbn; try reflexivity. f_equal. apply IH. Qed.
Lemma upd_id {A} (l : list A) a x : nth_error l a = Some x -> upd l a x = l.
Proof. revert a. induction l as [|z l IH]; intros [|a]; cbn; intros H; try discriminate; [congruence|]. f_equal. apply IH, H. Qed.
Lemma map_upd {A B} (f g : A -> B) l a x y : (forall b z, b <> a -> nth_error l b = Some z -> g z = f z) -> y = g x -> map g (upd l a x) = upd (map f l) a y.
Proof.
  revert a. induction l as [|z l IH]; intros [|a] H E; cbn; try reflexivity; subst y.
  - f_equal. apply map_ext_in. intros w Hw. apply In_nth_error in Hw as (b & Hb). apply (H (S b) w); [lia|exact Hb].
  - f_equal; [apply (H O z); [lia|reflexivity]|]. apply IH; [|reflexivity]. intros b w Hb. apply (H (S b)). lia.
Qed.

Lemma Forall2_impl {A B} (P Q : A -> B -> Prop) l m : (forall x y, P x y -> Q x y) -> Forall2 P l m -> Forall2 Q l m.
Proof. intros H F. induction F; constructor; auto. Qed.

(** A dictionary kept, in the store and as a value. *)
Definition vrel (h : gstore) (os : list gobject) (r : Z) (v : view) : Prop :=
  match v with
  | Live a u => exists o, nth_error os a = Some o /\ dget o u = Some r
  | Frozen d => 0 <= r < Z.of_nat (length h) /\ gread h r = d /\ forall o, In o os -> ~ In r (addrs o)
  end.
Definition ginv (st : gstate) (vst : vgstate) : Prop :=
  let '(h, os, vs) := st in
  (forall o, In o os -> okobj h o) /\
  (forall a b o o' r, a <> b -> nth_error os a = Some o -> nth_error os b = Some o' -> In r (addrs o) -> ~ In r (addrs o')) /\
  fst vst = map (graph_of h) os /\ Forall2 (vrel h os) vs (snd vst).

Lemma ginv_start : ginv ([], [], []) ([], []).
Proof. split; [intros o []|]. split; [intros [|a] b o o' r _ H; discriminate|]. split; [reflexivity|constructor]. Qed.

Lemma evolves_others h os a o h' o' : (forall o, In o os -> okobj h o) ->
  (forall a b o o' r, a <> b -> nth_error os a = Some o -> nth_error os b = Some o' -> In r (addrs o) -> ~ In r (addrs o')) ->
  nth_error os a = Some o -> evolves h o h' o' ->
  (forall x, In x (upd os a o') -> okobj h' x) /\
  (forall a1 b o1 o2 r, a1 <> b -> nth_error (upd os a o') a1 = Some o1 -> nth_error (upd os a o') b = Some o2 -> In r (addrs o1) -> ~ In r (addrs o2)) /\
  map (graph_of h') (upd os a o') = upd (map (graph_of h) os) a (graph_of h' o').
Proof.
  intros K D E Ev. pose proof Ev as (E1 & E2 & E3 & E4). assert (La : (a < length os)%nat) by (apply nth_error_Some; congruence).
  assert (Oth : forall b x, b <> a -> nth_error os b = Some x -> forall r, In r (addrs x) -> 0 <= r < Z.of_nat (length h) /\ ~ In r (addrs o)).
  { intros b x Nb Eb r Hr. split; [apply (K x (nth_error_In _ _ Eb)), Hr|]. exact (D b a x o r Nb Eb E Hr). }
  assert (Mix : forall b x r, b <> a -> nth_error os b = Some x -> In r (addrs x) -> ~ In r (addrs o')). { intros b x r Nb Eb Hr Hr'. destruct (Oth b x Nb Eb r Hr) as (O1 & O2). destruct (E4 r Hr'); [contradiction|lia]. }
  split; [|split].
  - intros x Hx. apply In_nth_error in Hx as (b & Hb). destruct (Nat.eq_dec b a) as [->|Nb]; [rewrite upd_same in Hb by exact La; injection Hb as <-; exact E3|].
    rewrite upd_other in Hb by exact Nb. destruct (K x (nth_error_In _ _ Hb)) as (K1 & K2). split; [exact K1|]. intros r Hr. apply K2 in Hr. lia.
  - intros a1 b o1 o2 r N H1 H2 Hr. destruct (Nat.eq_dec a1 a) as [->|N1], (Nat.eq_dec b a) as [->|N2]; [congruence| | |].
    + rewrite upd_same in H1 by exact La. injection H1 as <-. rewrite upd_other in H2 by exact N2. intros X. exact (Mix b o2 r N2 H2 X Hr).
    + rewrite upd_same in H2 by exact La. injection H2 as <-. rewrite upd_other in H1 by exact N1. exact (Mix a1 o1 r N1 H1 Hr).
    + rewrite upd_other in H1 by exact N1. rewrite upd_other in H2 by exact N2. exact (D a1 b o1 o2 r N H1 H2 Hr).
  - apply map_upd; [|reflexivity]. intros b x Nb Eb. apply graph_same. intros r Hr. destruct (Oth b x Nb Eb r Hr) as (O1 & O2). apply E2; assumption.
Qed.

(** Dictionaries kept that are not of vertices of the changed graph. *)
Lemma vrel_other h os a o h' o' r v : nth_error os a = Some o -> evolves h o h' o' -> (forall u, v <> Live a u) -> vrel h os r v -> vrel h' (upd os a o') r v.
Proof.
  intros E (E1 & E2 & E3 & E4) Nv. assert (La : (a < length os)%nat) by (apply nth_error_Some; congruence). destruct v as [b u|d]; cbn [vrel].
  - intros (x & Hx & Hu). exists x. split; [|exact Hu]. rewrite upd_other; [exact Hx|]. intros ->. exact (Nv u eq_refl).
  - intros (Hr & Rd & No). assert (~ In r (addrs o)) by exact (No o (nth_error_In _ _ E)). split; [lia|]. split; [rewrite E2; assumption|].
    intros x Hx. apply In_nth_error in Hx as (b & Hb). destruct (Nat.eq_dec b a) as [->|Nb]; [rewrite upd_same in Hb by exact La; injection Hb as <-; intros X; destruct (E4 r X); [contradiction|lia]|].
    rewrite upd_other in Hb by exact Nb. exact (No x (nth_error_In _ _ Hb)).
Qed.

Lemma put_inv h os vs gs vws a o ho g : ginv (h, os, vs) (gs, vws) -> nth_error os a = Some o ->
  evolves h o (fst ho) (snd ho) -> keeps o (snd ho) -> graph_of (fst ho) (snd ho) = g -> ginv (gput os vs a ho) (upd gs a g, vws).
Proof.
  intros (K & D & G & F) E Ev Kp Eg. destruct ho as [h' o']. cbn [fst snd] in *. destruct (evolves_others h os a o h' o' K D E Ev) as (A1 & A2 & A3). unfold gput. cbn [fst snd ginv].
  split; [exact A1|]. split; [exact A2|]. split; [rewrite A3, Eg, G; reflexivity|]. refine (Forall2_impl _ _ _ _ _ F). intros r v Hv. destruct v as [b u|d]; [|apply (vrel_other h os a o h' o' r (Frozen d) E Ev); [intros z; discriminate|exact Hv]].
  destruct (Nat.eq_dec b a) as [->|Nb]; [|apply (vrel_other h os a o h' o' r _ E Ev); [congruence|exact Hv]].
  destruct Hv as (x & Hx & Hu). exists o'. split; [apply upd_same, nth_error_Some; congruence|]. apply Kp. congruence.
Qed.

Lemma add_inv h os vs gs vws ho g : ginv (h, os, vs) (gs, vws) -> making h ho g -> ginv (gadd os vs ho) (gs ++ [g], vws).
Proof.
  intros (K & D & G & F) ((E1 & E2 & E3 & E4) & Eg). destruct ho as [h' o']. cbn [fst snd] in *. unfold gadd. cbn [fst snd ginv].
  assert (Rd : forall r, 0 <= r < Z.of_nat (length h) -> gread h' r = gread h r) by (intros r Hr; apply E2; [exact Hr|intros []]).
  assert (New : forall r, In r (addrs o') -> Z.of_nat (length h) <= r) by (intros r Hr; destruct (E4 r Hr) as [[]|X]; exact X).
  split; [|split; [|split]].
  - intros x [Hx|[<-|[]]]%in_app_iff; [|exact E3]. destruct (K x Hx) as (K1 & K2). split; [exact K1|]. intros r Hr. apply K2 in Hr. lia.
  - assert (S : forall b x, nth_error (os ++ [o']) b = Some x -> nth_error os b = Some x \/ (b = length os /\ x = o')).
    { intros b x H. destruct (Nat.lt_ge_cases b (length os)) as [L|L]; [left; rewrite nth_error_app1 in H by exact L; exact H|]. right. rewrite nth_error_app2 in H by exact L. destruct (b - length os)%nat as [|k] eqn:Eb; cbn in H; [injection H as <-; split; [lia|reflexivity]|destruct k; discriminate]. }
    intros a b x y r N H1 H2 Hr Hr'. destruct (S a x H1) as [H1'|(-> & ->)], (S b y H2) as [H2'|(-> & ->)].
    + exact (D a b x y r N H1' H2' Hr Hr').
    + apply New in Hr'. apply (K x (nth_error_In _ _ H1')) in Hr. lia.
    + apply New in Hr. apply (K y (nth_error_In _ _ H2')) in Hr'. lia.
    + congruence.
  - rewrite map_app. cbn [map]. rewrite Eg, G. f_equal. apply map_ext_in. intros x Hx. symmetry. apply graph_same. intros r Hr. apply Rd, (K x Hx), Hr.
  - refine (Forall2_impl _ _ _ _ _ F). intros r [a u|d]; cbn [vrel].
    + intros (x & Hx & Hu). exists x. split; [|exact Hu]. rewrite nth_error_app1; [exact Hx|]. apply nth_error_Some. congruence.
    + intros (Hr & Rr & No). split; [lia|]. split; [rewrite Rd; assumption|]. intros x [Hx|[<-|[]]]%in_app_iff; [exact (No x Hx)|]. intros X. apply New in X. lia.
Qed.

(** One vertex deleted. *)
Lemma delete_inv h os vs gs vws a o u : ginv (h, os, vs) (gs, vws) -> nth_error os a = Some o ->
  ginv (gput os vs a (go_delete_vertex (h, o) u)) (upd gs a (delete_vertex (graph_of h o) u), map (freeze a (graph_of h o) u) vws).
Proof.
  intros (K & D & G & F) E. destruct (delete_vertex_ok h o u (K o (nth_error_In _ _ E))) as (Ev & Eg & Kp & Gone). destruct (go_delete_vertex (h, o) u) as [h' o']. cbn [fst snd] in *.
  destruct (evolves_others h os a o h' o' K D E Ev) as (A1 & A2 & A3). unfold gput. cbn [fst snd ginv].
  split; [exact A1|]. split; [exact A2|]. split; [rewrite A3, Eg, G; reflexivity|]. pose proof Ev as (E1 & E2 & E3 & E4). assert (La : (a < length os)%nat) by (apply nth_error_Some; congruence).
  cut (forall r v, vrel h os r v -> vrel h' (upd os a o') r (freeze a (graph_of h o) u v)). { intros H. clear - F H. induction F; cbn; constructor; auto. }
  intros r v Hv. destruct v as [b x|d]; [|apply (vrel_other h os a o h' o' r (Frozen d) E Ev); [intros z; discriminate|exact Hv]]. cbn [freeze].
  destruct (Nat.eqb_spec b a) as [->|Nb]; cbn [andb]; [|apply (vrel_other h os a o h' o' r _ E Ev); [congruence|exact Hv]].
  destruct Hv as (o1 & Ho1 & Hu). replace o1 with o in * by congruence. clear o1 Ho1. destruct (Z.eqb_spec x u) as [->|Nx].
  - rewrite graph_dget, Hu. destruct (Gone r Hu) as (G1 & G2). pose proof (proj2 (K o (nth_error_In _ _ E)) r (dget_addr o u r Hu)) as Hr. cbn [vrel]. split; [lia|]. split; [exact G2|].
    intros y Hy. apply In_nth_error in Hy as (b & Hb). destruct (Nat.eq_dec b a) as [->|Nb]; [rewrite upd_same in Hb by exact La; injection Hb as <-; exact G1|].
    rewrite upd_other in Hb by exact Nb. exact (D a b o y r (fun X => Nb (eq_sym X)) E Hb (dget_addr o u r Hu)).
  - exists o'. split; [apply upd_same, La|]. apply Kp; assumption.
Qed.

Lemma deletes_inv l : forall h os vs gs vws a o, ginv (h, os, vs) (gs, vws) -> nth_error os a = Some o ->
  ginv (gput os vs a (go_delete_vertices (h, o) l)) (upd gs a (delete_vertices (graph_of h o) l), freeze_all a (graph_of h o) l vws).
Proof.
  induction l as [|u l IH]; intros h os vs gs vws a o Iv E.
  - cbn. rewrite !upd_id; [exact Iv| |exact E]. destruct Iv as (_ & _ & G & _). cbn [fst] in G. rewrite G. rewrite nth_error_map, E. reflexivity.
  - unfold go_delete_vertices, delete_vertices. cbn [fold_left freeze_all]. pose proof (delete_inv h os vs gs vws a o u Iv E) as D1. destruct (delete_vertex_ok h o u) as (_ & Eg & _); [destruct Iv as (K & _); exact (K o (nth_error_In _ _ E))|].
    destruct (go_delete_vertex (h, o) u) as [h1 o1]. cbn [fst snd] in *. unfold gput in D1. cbn [fst snd] in D1.
    specialize (IH h1 (upd os a o1) vs _ _ a o1 D1). rewrite upd_same in IH by (apply nth_error_Some; congruence). specialize (IH eq_refl). rewrite Eg in IH. unfold gput in *. rewrite !upd_upd in IH. exact IH.
Qed.

Lemma object_sim h os vs gs vws a : ginv (h, os, vs) (gs, vws) -> sim (fun o g => nth_error os a = Some o /\ g = graph_of h o /\ okobj h o) (object_named os a) (object_named gs a).
Proof.
  intros (K & _ & G & _). cbn [fst] in G. subst gs. unfold object_named. rewrite nth_error_map. destruct (nth_error os a) as [o|] eqn:E; cbn; [|reflexivity]. split; [reflexivity|]. split; [reflexivity|]. exact (K o (nth_error_In _ _ E)).
Qed.

Lemma gstep_sim ord st vst op : ginv st vst -> sim ginv (gstep ord st op) (vgstep ord vst op).
Proof.
  destruct st as [[h os] vs], vst as [gs vws]. intros Iv.
  assert (Mk : forall r r', sim (making h) r r' -> sim ginv (do ho <- r; Ret (gadd os vs ho)) (do g <- r'; Ret (gs ++ [g], vws))). { intros r r' H. eapply sim_bind; [exact H|]. intros ho g M. exact (add_inv h os vs gs vws ho g Iv M). }
  assert (Do : forall a o f F, nth_error os a = Some o -> okobj h o -> does f F -> ginv (gput os vs a (f (h, o))) (upd gs a (F (graph_of h o)), vws)).
  { intros a o f F E K H. destruct (H h o K) as (A & B & C). exact (put_inv h os vs gs vws a o (f (h, o)) _ Iv E A B C). }
  destruct op as [|a|a l|a l|a l|a u v|a u v w|a u|a l|a u v|a u|a u|a T|a|a u]; cbn [gstep vgstep].
  - exact (add_inv h os vs gs vws (h, []) empty_graph Iv (making_start h)).
  - eapply sim_bind; [exact (object_sim _ _ _ _ _ _ Iv)|]. intros o g (E & -> & K). exact (add_inv h os vs gs vws _ _ Iv (copy_making h o K)).
  - eapply sim_bind; [exact (object_sim _ _ _ _ _ _ Iv)|]. intros o g (E & -> & K). exact (Do a o _ _ E K (add_vertices_does l)).
  - eapply sim_bind; [exact (object_sim _ _ _ _ _ _ Iv)|]. intros o g (E & -> & K). exact (deletes_inv l h os vs gs vws a o Iv E).
  - eapply sim_bind; [exact (object_sim _ _ _ _ _ _ Iv)|]. intros o g (E & -> & K). exact (Do a o _ _ E K (add_edges_does l)).
  - eapply sim_bind; [exact (object_sim _ _ _ _ _ _ Iv)|]. intros o g (E & -> & K). exact (Do a o _ _ E K (delete_edge_does u v)).
  - eapply sim_bind; [exact (object_sim _ _ _ _ _ _ Iv)|]. intros o g (E & -> & K). pose proof (go_set_sim h o u v w K) as H.
    destruct (g_adj (graph_of h o) u) as [d|e|]; cbn [bind] in *; (destruct (go_set (h, o) u v w) as [ho|e'|]; cbn [sim bind] in *; try contradiction; [|exact H|exact H] || destruct (go_set (h, o) u v w) as [ho|e'|]; cbn [sim bind] in *; try contradiction; try exact H).
    destruct H as (A & B & C). exact (put_inv h os vs gs vws a o ho _ Iv E A B C).
  - eapply sim_bind; [exact (object_sim _ _ _ _ _ _ Iv)|]. intros o g (E & -> & K). exact (add_inv h os vs gs vws _ _ Iv (making_delete_vertices h _ _ [u] (copy_making h o K))).
  - eapply sim_bind; [exact (object_sim _ _ _ _ _ _ Iv)|]. intros o g (E & -> & K). exact (add_inv h os vs gs vws _ _ Iv (making_delete_vertices h _ _ l (copy_making h o K))).
  - eapply sim_bind; [exact (object_sim _ _ _ _ _ _ Iv)|]. intros o g (E & -> & K).
    exact (add_inv h os vs gs vws _ _ Iv (making_does h _ _ _ _ (copy_making h o K) (delete_edge_does u v))).
  - eapply sim_bind; [exact (object_sim _ _ _ _ _ _ Iv)|]. intros o g (E & -> & K). apply Mk, remove_neighborhood_sim, K.
  - eapply sim_bind; [exact (object_sim _ _ _ _ _ _ Iv)|]. intros o g (E & -> & K). apply Mk, remove_closed_neighborhood_sim, K.
  - eapply sim_bind; [exact (object_sim _ _ _ _ _ _ Iv)|]. intros o g (E & -> & K). apply Mk, induced_sim, K.
  - eapply sim_bind; [exact (object_sim _ _ _ _ _ _ Iv)|]. intros o g (E & -> & K). apply Mk, complement_sim, K.
  - eapply sim_bind; [exact (object_sim _ _ _ _ _ _ Iv)|]. intros o g (E & -> & K). unfold go_getitem, g_adj, dgetM. rewrite graph_dget. destruct (dget o u) as [r|] eqn:Eu; cbn [bind sim]; [|reflexivity].
    destruct Iv as (I1 & I2 & I3 & I4). split; [exact I1|]. split; [exact I2|]. split; [exact I3|]. cbn [snd] in *. apply Forall2_app; [exact I4|]. constructor; [|constructor]. exists o. auto.
Qed.

Lemma grun_sim ord p : sim ginv (grun ord p) (vgrun ord p).
Proof. unfold grun, vgrun. apply sim_foldM; [exact ginv_start|]. intros s t op _ H. apply gstep_sim, H. Qed.

Lemma ginv_views h os vs gs vws : ginv (h, os, vs) (gs, vws) -> map (gread h) vs = map (seen gs) vws.
Proof.
  intros (_ & _ & G & F). cbn [fst snd] in *. subst gs. induction F as [|r v vs vws Hv F IH]; [reflexivity|]. cbn [map]. f_equal; [|exact IH]. destruct v as [a u|d]; cbn [vrel seen] in *; [|apply Hv].
  destruct Hv as (o & Ho & Hu). change empty_graph with (graph_of h []). rewrite map_nth. rewrite (nth_error_nth _ _ _ Ho), graph_dget, Hu. reflexivity.
Qed.
