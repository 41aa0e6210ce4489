(** * Graph objects in a store: one object *)
From Coq Require Import ZArith List Bool Lia.
From Verif Require Import Base Py Lists Lists2 Dict Graph_Model Mob_Proofs Gob_Model Gob_Spec.
Import ListNotations.
Open Scope Z_scope.

Definition addrs (o : gobject) : list Z := map snd o.
Definition okobj (h : gstore) (o : gobject) : Prop := NoDup (addrs o) /\ forall r, In r (addrs o) -> 0 <= r < Z.of_nat (length h).

(** The object o becomes o' and the store h becomes h': only dictionaries of o are changed, and o' has dictionaries of o or new ones. *)
Definition evolves (h : gstore) (o : gobject) (h' : gstore) (o' : gobject) : Prop :=
  (length h <= length h')%nat /\ (forall r, 0 <= r < Z.of_nat (length h) -> ~ In r (addrs o) -> gread h' r = gread h r) /\
  okobj h' o' /\ forall r, In r (addrs o') -> In r (addrs o) \/ Z.of_nat (length h) <= r.
(** The vertices keep their dictionaries. *)
Definition keeps (o o' : gobject) : Prop := forall u r, dget o u = Some r -> dget o' u = Some r.

Lemma evolves_refl h o : okobj h o -> evolves h o h o.
Proof. intros H. split; [lia|]. split; [reflexivity|]. split; [exact H|]. auto. Qed.
Lemma evolves_trans h o h1 o1 h2 o2 : evolves h o h1 o1 -> evolves h1 o1 h2 o2 -> evolves h o h2 o2.
Proof.
  intros (A1 & A2 & A3 & A4) (B1 & B2 & B3 & B4). split; [lia|]. split; [|split; [exact B3|]].
  - intros r Hr N. rewrite B2, A2; [reflexivity|exact Hr|exact N|lia|]. intros H. destruct (A4 r H); [auto|lia].
  - intros r Hr. destruct (B4 r Hr) as [H|H]; [apply A4, H|right; lia].
Qed.
Lemma keeps_trans o o1 o2 : keeps o o1 -> keeps o1 o2 -> keeps o o2.
Proof. intros H K u r E. apply K, H, E. Qed.

Lemma gread_gnew h d r : 0 <= r -> gread (h ++ [d]) r = if r =? Z.of_nat (length h) then d else gread h r.
Proof.
  intros Hr. unfold gread. destruct (Z.eqb_spec r (Z.of_nat (length h))) as [->|N].
  - rewrite Nat2Z.id, app_nth2, Nat.sub_diag by lia. reflexivity.
  - destruct (Z.lt_ge_cases r (Z.of_nat (length h))); [rewrite app_nth1 by lia; reflexivity|]. rewrite !nth_overflow; [reflexivity|lia|rewrite app_length; cbn [length]; lia].
Qed.
Lemma gread_gwrite h r d s : 0 <= r < Z.of_nat (length h) -> 0 <= s -> gread (gwrite h r d) s = if s =? r then d else gread h s.
Proof.
  intros Hr Hs. unfold gread, gwrite. rewrite upd_nth by lia. destruct (Z.eqb_spec s r), (Nat.eqb_spec (Z.to_nat s) (Z.to_nat r)); try lia; reflexivity.
Qed.

Lemma dget_addr (o : gobject) u r : dget o u = Some r -> In r (addrs o).
Proof. intros E. apply dget_Some_In in E. apply (in_map snd) in E. exact E. Qed.
Lemma graph_dget h o u : dget (graph_of h o) u = match dget o u with Some r => Some (gread h r) | None => None end.
Proof. induction o as [|[k r] o IH]; [reflexivity|]. cbn. destruct (k =? u); [reflexivity|exact IH]. Qed.
Lemma graph_dmem h o u : dmem (graph_of h o) u = dmem o u.
Proof. unfold dmem. rewrite graph_dget. destruct (dget o u); reflexivity. Qed.
Lemma graph_keys h o : dkeys (graph_of h o) = dkeys o.
Proof. unfold dkeys, graph_of. rewrite map_map. reflexivity. Qed.
Lemma graph_same h h' o : (forall r, In r (addrs o) -> gread h' r = gread h r) -> graph_of h' o = graph_of h o.
Proof. intros H. apply map_ext_in. intros [u r] Hu. cbn. rewrite H; [reflexivity|]. apply (in_map snd) in Hu. exact Hu. Qed.

Lemma addrs_dset (o : gobject) u r x : In x (addrs (dset o u r)) -> x = r \/ In x (addrs o).
Proof. induction o as [|[k s] o IH]; cbn; [intros [->|[]]; auto|]. destruct (k =? u); cbn; [intros [->|H]; auto|intros [->|H]; [auto|destruct (IH H); auto]]. Qed.
Lemma addrs_dset_nodup (o : gobject) u r : NoDup (addrs o) -> ~ In r (addrs o) -> NoDup (addrs (dset o u r)).
Proof.
  induction o as [|[k s] o IH]; cbn; intros N H; [repeat constructor; intros []|]. inversion_clear N as [|? ? N1 N2]. destruct (k =? u); cbn.
  - constructor; [intros X; apply H; right; exact X|exact N2].
  - constructor; [intros X; destruct (addrs_dset _ _ _ _ X) as [->|Y]; [apply H; left; reflexivity|exact (N1 Y)]|]. apply IH; [exact N2|]. intros X. apply H. right. exact X.
Qed.
Lemma graph_dset h (o : gobject) u r : graph_of h (dset o u r) = dset (graph_of h o) u (gread h r).
Proof. induction o as [|[k s] o IH]; [reflexivity|]. cbn. destruct (k =? u); [reflexivity|]. cbn. f_equal. exact IH. Qed.

(** A new dictionary. *)
Lemma new_row h o u d : okobj h o -> evolves h o (h ++ [d]) (dset o u (Z.of_nat (length h))) /\ graph_of (h ++ [d]) (dset o u (Z.of_nat (length h))) = dset (graph_of h o) u d.
Proof.
  intros (N & V). split.
  - split; [rewrite app_length; lia|]. split; [intros r Hr _; rewrite gread_gnew by lia; destruct (Z.eqb_spec r (Z.of_nat (length h))); [lia|reflexivity]|]. split.
    + split; [apply addrs_dset_nodup; [exact N|intros X; apply V in X; lia]|]. intros r Hr. rewrite app_length. cbn [length]. destruct (addrs_dset _ _ _ _ Hr) as [->|Y]; [lia|apply V in Y; lia].
    + intros r Hr. destruct (addrs_dset _ _ _ _ Hr) as [->|Y]; [right; lia|left; exact Y].
  - rewrite graph_dset. rewrite gread_gnew, Z.eqb_refl by lia. f_equal. apply graph_same. intros r Hr. apply V in Hr. rewrite gread_gnew by lia. destruct (Z.eqb_spec r (Z.of_nat (length h))); [lia|reflexivity].
Qed.
Lemma new_row_keeps (o : gobject) u r : dget o u = None -> keeps o (dset o u r).
Proof. intros H v s E. rewrite dget_dset. destruct (Z.eqb_spec u v) as [->|]; [congruence|exact E]. Qed.

(** A changed dictionary. *)
Lemma write_row h o u r d : okobj h o -> dget o u = Some r -> evolves h o (gwrite h r d) o /\ graph_of (gwrite h r d) o = dset (graph_of h o) u d.
Proof.
  intros (N & V) E. pose proof (V r (dget_addr o u r E)) as Hr. split.
  - split; [unfold gwrite; rewrite upd_length; lia|]. split; [|split; [split; [exact N|]|auto]].
    + intros s Hs Ns. rewrite gread_gwrite by lia. destruct (Z.eqb_spec s r) as [->|]; [|reflexivity]. destruct Ns. apply dget_addr in E. exact E.
    + unfold gwrite. rewrite upd_length. exact V.
  - clear - N V E Hr. induction o as [|[k s] o IH]; [discriminate|]. cbn in *. inversion_clear N as [|? ? N1 N2]. destruct (k =? u).
    + injection E as ->. rewrite gread_gwrite, Z.eqb_refl by lia. f_equal. apply graph_same. intros x Hx. pose proof (V x (or_intror Hx)). rewrite gread_gwrite by lia. destruct (Z.eqb_spec x r) as [->|]; [contradiction|reflexivity].
    + rewrite gread_gwrite by (try exact Hr; apply V; left; reflexivity). destruct (Z.eqb_spec s r) as [->|]; [apply dget_addr in E; contradiction|]. f_equal. apply IH; [exact N2| |exact E]. intros x Hx. apply V. right. exact Hx.
Qed.

(** ** The operations that change a graph *)
Definition does (f : gstore * gobject -> gstore * gobject) (F : graph -> graph) : Prop :=
  forall h o, okobj h o -> evolves h o (fst (f (h, o))) (snd (f (h, o))) /\ keeps o (snd (f (h, o))) /\ graph_of (fst (f (h, o))) (snd (f (h, o))) = F (graph_of h o).

Lemma does_comp f g F G : does f F -> does g G -> does (fun ho => g (f ho)) (fun x => G (F x)).
Proof.
  intros Hf Hg h o K. destruct (Hf h o K) as (A1 & A2 & A3). destruct (f (h, o)) as [h1 o1]. cbn [fst snd] in *. destruct (Hg h1 o1) as (B1 & B2 & B3); [apply A1|].
  split; [exact (evolves_trans _ _ _ _ _ _ A1 B1)|]. split; [exact (keeps_trans _ _ _ A2 B2)|]. rewrite B3, A3. reflexivity.
Qed.
Lemma does_id : does (fun ho => ho) (fun g => g).
Proof. intros h o K. split; [apply evolves_refl, K|]. split; [intros u r E; exact E|reflexivity]. Qed.
Lemma does_fold {A} (f : gstore * gobject -> A -> gstore * gobject) (F : graph -> A -> graph) l : (forall x, does (fun ho => f ho x) (fun g => F g x)) -> does (fun ho => fold_left f l ho) (fun g => fold_left F l g).
Proof. intros H. induction l as [|x l IH]; [apply does_id|]. cbn [fold_left]. exact (does_comp _ _ _ _ (H x) IH). Qed.

Lemma add_vertex_does u : does (fun ho => go_add_vertex ho u) (fun g => add_vertex g u).
Proof.
  intros h o K. unfold go_add_vertex, add_vertex. rewrite graph_dmem. destruct (dmem o u) eqn:E; [exact (does_id h o K)|]. unfold gnew. cbn [fst snd].
  destruct (new_row h o u [] K) as (A & B). split; [exact A|]. split; [|exact B]. apply new_row_keeps. unfold dmem in E. destruct (dget o u); [discriminate|reflexivity].
Qed.
Lemma add_arc_does a b w : does (fun ho => go_add_arc ho a b w) (fun g => add_arc g a b w).
Proof.
  intros h o K. unfold go_add_arc, add_arc. rewrite graph_dget. destruct (dget o a) as [r|] eqn:E; cbn [fst snd].
  - destruct (write_row h o a r (dset (gread h r) b w) K E) as (A & B). split; [exact A|]. split; [intros u s X; exact X|exact B].
  - destruct (new_row h o a [(b, w)] K) as (A & B). split; [exact A|]. split; [apply new_row_keeps, E|exact B].
Qed.
Lemma add_edge_does u v w : does (fun ho => go_add_edge ho u v w) (fun g => add_edge g u v w).
Proof. exact (does_comp _ _ _ _ (add_arc_does u v w) (add_arc_does v u w)). Qed.
Lemma add_vertices_does l : does (fun ho => go_add_vertices ho l) (fun g => add_vertices g l).
Proof. exact (does_fold go_add_vertex add_vertex l add_vertex_does). Qed.
Lemma add_edges_does l : does (fun ho => go_add_edges ho l) (fun g => add_edges g l).
Proof. unfold go_add_edges, add_edges. apply does_fold. intros [[u v] w]. apply add_edge_does. Qed.
Lemma del_arc_does u v : does (fun ho => go_del_arc ho u v) (fun g => del_arc g u v).
Proof.
  intros h o K. unfold go_del_arc, del_arc. rewrite graph_dget. destruct (dget o u) as [r|] eqn:E; cbn [fst snd]; [|exact (does_id h o K)].
  destruct (write_row h o u r (ddel (gread h r) v) K E) as (A & B). split; [exact A|]. split; [intros x s X; exact X|exact B].
Qed.
Lemma delete_edge_does u v : does (fun ho => go_delete_edge ho u v) (fun g => delete_edge g u v).
Proof. exact (does_comp _ _ _ _ (del_arc_does v u) (del_arc_does u v)). Qed.

Lemma go_set_sim h o u v w : okobj h o -> sim (fun ho g => evolves h o (fst ho) (snd ho) /\ keeps o (snd ho) /\ graph_of (fst ho) (snd ho) = g)
  (go_set (h, o) u v w) (do d <- g_adj (graph_of h o) u; Ret (dset (graph_of h o) u (dset d v w))).
Proof.
  intros K. unfold go_set, go_getitem, g_adj, dgetM. rewrite graph_dget. destruct (dget o u) as [r|] eqn:E; cbn [bind sim]; [|reflexivity].
  destruct (write_row h o u r (dset (gread h r) v w) K E) as (A & B). cbn [fst snd]. split; [exact A|]. split; [intros x s X; exact X|exact B].
Qed.

(** ** Deletion of vertices *)
Lemma forget_ok u : forall (o : gobject) h, okobj h o -> length (go_forget h o u) = length h /\
  forall r, 0 <= r -> gread (go_forget h o u) r = if existsb (Z.eqb r) (addrs o) then ddel (gread h r) u else gread h r.
Proof.
  induction o as [|[k s] o IH]; intros h (N & V); [split; reflexivity|]. cbn in N. inversion_clear N as [|? ? N1 N2]. unfold go_forget. cbn [fold_left snd].
  set (h1 := gwrite h s (ddel (gread h s) u)). assert (Hs : 0 <= s < Z.of_nat (length h)) by (apply V; left; reflexivity).
  assert (L1 : length h1 = length h) by apply upd_length. destruct (IH h1) as (L & R). { split; [exact N2|]. rewrite L1. intros r Hr. apply V. right. exact Hr. }
  unfold go_forget in L, R. split; [rewrite L; exact L1|]. intros r Hr. rewrite R by exact Hr. unfold h1. rewrite gread_gwrite by assumption. cbn [addrs map snd existsb].
  destruct (Z.eqb_spec r s) as [->|]; [|reflexivity]. cbn [orb]. destruct (existsb (Z.eqb s) (addrs o)) eqn:X; [|reflexivity].
  apply existsb_exists in X as (y & Hy & Ey%Z.eqb_eq). subst y. contradiction.
Qed.

Lemma addrs_ddel (o : gobject) u r : In r (addrs (ddel o u)) -> In r (addrs o).
Proof. induction o as [|[k s] o IH]; [auto|]. cbn. destruct (k =? u); cbn; [auto|]. intros [H|H]; auto. Qed.
Lemma addrs_ddel_nodup (o : gobject) u : NoDup (addrs o) -> NoDup (addrs (ddel o u)).
Proof. induction o as [|[k s] o IH]; [auto|]. cbn. intros N. inversion_clear N as [|? ? N1 N2]. destruct (k =? u); cbn; [exact N2|]. constructor; [intros X; apply N1, (addrs_ddel o u), X|apply IH, N2]. Qed.
Lemma addrs_ddel_gone (o : gobject) u r : NoDup (addrs o) -> dget o u = Some r -> ~ In r (addrs (ddel o u)).
Proof.
  induction o as [|[k s] o IH]; cbn; intros N E; [discriminate|]. inversion_clear N as [|? ? N1 N2]. destruct (k =? u); [injection E as <-; exact N1|]. cbn. intros [->|H]; [exact (N1 (dget_addr o u r E))|exact (IH N2 E H)].
Qed.
Lemma dget_ddel_other {V} (o : list (Z * V)) u v : u <> v -> dget (ddel o u) v = dget o v.
Proof. intros N. induction o as [|[k s] o IH]; [reflexivity|]. cbn. destruct (Z.eqb_spec k u) as [->|]; cbn; [destruct (Z.eqb_spec u v); [contradiction|reflexivity]|]. destruct (k =? v); [reflexivity|exact IH]. Qed.
Lemma graph_ddel h (o : gobject) u : graph_of h (ddel o u) = ddel (graph_of h o) u.
Proof. induction o as [|[k s] o IH]; [reflexivity|]. cbn. destruct (k =? u); [reflexivity|]. cbn. f_equal. exact IH. Qed.

Lemma delete_vertex_ok h o u : okobj h o -> let h' := fst (go_delete_vertex (h, o) u) in let o' := snd (go_delete_vertex (h, o) u) in
  evolves h o h' o' /\ graph_of h' o' = delete_vertex (graph_of h o) u /\ (forall v r, v <> u -> dget o v = Some r -> dget o' v = Some r) /\
  forall r, dget o u = Some r -> ~ In r (addrs o') /\ gread h' r = gread h r.
Proof.
  intros K. pose proof K as (N & V). unfold go_delete_vertex, delete_vertex. rewrite graph_dmem. destruct (dmem o u) eqn:E; cbn [fst snd]; cycle 1.
  { split; [apply evolves_refl, K|]. split; [reflexivity|]. split; [auto|]. intros r Hr. unfold dmem in E. rewrite Hr in E. discriminate. }
  assert (K' : okobj h (ddel o u)). { split; [apply addrs_ddel_nodup, N|]. intros r Hr. apply V, (addrs_ddel o u), Hr. }
  destruct (forget_ok u (ddel o u) h K') as (L & R).
  assert (Nin : forall r, ~ In r (addrs (ddel o u)) -> existsb (Z.eqb r) (addrs (ddel o u)) = false). { intros r Hr. apply not_true_iff_false. intros X. apply existsb_exists in X as (y & Hy & Ey%Z.eqb_eq). subst y. exact (Hr Hy). }
  split; [|split; [|split]].
  - split; [lia|]. split; [|split; [|intros r Hr; left; apply (addrs_ddel o u), Hr]].
    + intros r Hr Nr. rewrite R by lia. rewrite Nin; [reflexivity|]. intros X. apply Nr, (addrs_ddel o u), X.
    + split; [apply K'|]. rewrite L. apply K'.
  - rewrite <- graph_ddel. unfold graph_of. rewrite map_map. apply map_ext_in. intros [v r] Hv. cbn [fst snd]. apply (in_map snd) in Hv. cbn in Hv. pose proof (proj2 K' r Hv). rewrite R by lia.
    replace (existsb (Z.eqb r) (addrs (ddel o u))) with true; [reflexivity|]. symmetry. apply existsb_exists. exists r. split; [exact Hv|apply Z.eqb_refl].
  - intros v r Nv Hv. rewrite dget_ddel_other by congruence. exact Hv.
  - intros r Hr. pose proof (addrs_ddel_gone o u r N Hr) as G. split; [exact G|]. pose proof (V r (dget_addr o u r Hr)). rewrite R by lia. rewrite Nin by exact G. reflexivity.
Qed.

Lemma delete_vertices_ok l : forall h o, okobj h o -> let h' := fst (go_delete_vertices (h, o) l) in let o' := snd (go_delete_vertices (h, o) l) in
  evolves h o h' o' /\ graph_of h' o' = delete_vertices (graph_of h o) l.
Proof.
  induction l as [|u l IH]; intros h o K; [split; [apply evolves_refl, K|reflexivity]|]. cbv zeta in *. unfold go_delete_vertices, delete_vertices. cbn [fold_left].
  destruct (delete_vertex_ok h o u K) as (A & B & _). destruct (go_delete_vertex (h, o) u) as [h1 o1]. cbn [fst snd] in *. destruct (IH h1 o1) as (C & D); [apply A|].
  split; [exact (evolves_trans _ _ _ _ _ _ A C)|]. unfold go_delete_vertices, delete_vertices in D. rewrite D, B. reflexivity.
Qed.

(** ** New graphs *)
Lemma copy_ok h o : okobj h o -> evolves h [] (fst (go_copy h o)) (snd (go_copy h o)) /\ graph_of (fst (go_copy h o)) (snd (go_copy h o)) = graph_of h o.
Proof.
  intros (_ & V). unfold go_copy.
  assert (G : forall l h1 o1, (forall r, In r (addrs l) -> 0 <= r < Z.of_nat (length h)) -> evolves h [] h1 o1 ->
    let ho := fold_left (fun '(h', o') '(u, r) => let '(h', r') := gnew h' (gread h' r) in (h', o' ++ [(u, r')])) l (h1, o1) in
    evolves h [] (fst ho) (snd ho) /\ graph_of (fst ho) (snd ho) = graph_of h1 o1 ++ graph_of h l).
  { induction l as [|[u r] l IH]; intros h1 o1 Vl Ev; cbv zeta in *; [cbn; rewrite app_nil_r; auto|]. cbn [fold_left].
    pose proof Ev as (E1 & E2 & (E3 & E4) & E5). pose proof (Vl r (or_introl eq_refl)) as Hr.
    set (n := Z.of_nat (length h1)). set (h2 := h1 ++ [gread h1 r]).
    assert (Rd : forall s, 0 <= s < n -> gread h2 s = gread h1 s). { intros s Hs. unfold h2. rewrite gread_gnew by lia. destruct (Z.eqb_spec s (Z.of_nat (length h1))); [unfold n in Hs; lia|reflexivity]. }
    assert (Ev2 : evolves h [] h2 (o1 ++ [(u, n)])).
    { split; [unfold h2; rewrite app_length; lia|]. split; [intros s Hs _; rewrite Rd by (unfold n; lia); apply E2; [exact Hs|intros []]|]. unfold okobj, addrs. rewrite map_app. cbn [map snd]. split.
      - split; [apply NoDup_app_intro; [exact E3|repeat constructor; intros []|]; intros x Hx [<-|[]]; apply E4 in Hx; unfold n in Hx; lia|].
        intros x [Hx|[<-|[]]]%in_app_iff; unfold h2; rewrite app_length; cbn [length]; [apply E4 in Hx; lia|unfold n; lia].
      - intros x [Hx|[<-|[]]]%in_app_iff; [apply E5, Hx|right; unfold n; lia]. }
    destruct (IH h2 (o1 ++ [(u, n)])) as (I1 & I2); [intros s Hs; apply Vl; right; exact Hs|exact Ev2|]. split; [exact I1|]. etransitivity; [exact I2|]. unfold graph_of at 1. rewrite map_app. cbn [map fst snd]. rewrite <- app_assoc. cbn [app].
    f_equal; [apply graph_same; intros s Hs; apply E4 in Hs; apply Rd; exact Hs|]. unfold graph_of at 2. cbn [map fst snd]. f_equal. f_equal.
    unfold h2, n. rewrite gread_gnew, Z.eqb_refl by lia. apply E2; [exact Hr|intros []]. }
  destruct (G o h [] V) as (A & B); [apply evolves_refl; split; [constructor|intros r []]|]. split; [exact A|exact B].
Qed.

(** A graph that is being made, and g. *)
Definition making (h : gstore) (ho : gstore * gobject) (g : graph) : Prop := evolves h [] (fst ho) (snd ho) /\ graph_of (fst ho) (snd ho) = g.
Lemma making_start h : making h (h, []) empty_graph.
Proof. split; [apply evolves_refl; split; [constructor|intros r []]|reflexivity]. Qed.
Lemma making_does h ho g f F : making h ho g -> does f F -> making h (f ho) (F g).
Proof. intros (A & <-) H. destruct ho as [h1 o1]. cbn [fst snd] in *. destruct (H h1 o1) as (B & _ & C); [apply A|]. split; [exact (evolves_trans _ _ _ _ _ _ A B)|exact C]. Qed.
Lemma making_read h h1 o1 g r : making h (h1, o1) g -> 0 <= r < Z.of_nat (length h) -> gread h1 r = gread h r.
Proof. intros ((_ & A & _) & _) Hr. apply A; [exact Hr|intros []]. Qed.
Lemma making_fold {A} h (f : gstore * gobject -> A -> gstore * gobject) (F : graph -> A -> graph) l : (forall ho g x, making h ho g -> making h (f ho x) (F g x)) ->
  forall ho g, making h ho g -> making h (fold_left f l ho) (fold_left F l g).
Proof. intros H. induction l as [|x l IH]; intros ho g M; [exact M|]. cbn [fold_left]. apply IH, H, M. Qed.

Lemma getitem_sim h o u : okobj h o -> sim (fun r d => gread h r = d /\ 0 <= r < Z.of_nat (length h)) (go_getitem o u) (g_adj (graph_of h o) u).
Proof.
  intros (_ & V). unfold go_getitem, g_adj, dgetM. rewrite graph_dget. destruct (dget o u) as [r|] eqn:E; cbn [sim]; [|reflexivity]. split; [reflexivity|]. apply V, (dget_addr o u), E.
Qed.

Lemma induced_sim ord h o T : okobj h o -> sim (making h) (go_induced_subgraph ord h o T) (induced_subgraph ord (graph_of h o) T).
Proof.
  intros K. unfold go_induced_subgraph, induced_subgraph. apply sim_foldM.
  - apply (making_fold h (fun '(h, new) v => let '(h, r) := gnew h [] in (h, dset new v r)) (fun x v => dset x v [])); [|apply making_start].
    intros [h1 o1] g v (A & B). cbn [fst snd] in *. unfold gnew. destruct (new_row h1 o1 v [] (proj1 (proj2 (proj2 A)))) as (C & D). split; cbn [fst snd]; [exact (evolves_trans _ _ _ _ _ _ A C)|]. rewrite D, B. reflexivity.
  - intros [h1 o1] g u _ M. unfold induced_row. pose proof (getitem_sim h o u K) as G. destruct (go_getitem o u) as [r|e|] eqn:E1, (g_adj (graph_of h o) u) as [d|e'|] eqn:E2; cbn [sim] in G; try contradiction; cbn [bind sim]; [|congruence|exact Logic.I].
    destruct G as (<- & Hr). rewrite (making_read h h1 o1 g r M Hr). apply sim_foldM; [exact M|]. intros [h2 o2] g2 v _ M2.
    rewrite (making_read h h2 o2 g2 r M2 Hr). eapply sim_bind; [apply sim_eq|]. intros w w' <-. cbn [sim]. apply (making_does h (h2, o2) g2 (fun ho => go_add_edge ho u v w) (fun g => add_edge g u v w) M2 (add_edge_does u v w)).
Qed.

Lemma complement_sim h o : okobj h o -> sim (making h) (go_complement h o) (complement (graph_of h o)).
Proof.
  intros K. unfold go_complement, complement, vertices, go_iter. rewrite graph_keys.
  assert (G : forall vs before ho g, making h ho g -> sim (making h) (go_complement_rows o ho before vs) (complement_rows (graph_of h o) g before vs)).
  { induction vs as [|u vs IH]; intros before ho g M; cbn [go_complement_rows complement_rows]; [exact M|]. eapply sim_bind; [|intros ho' g' M'; apply IH; exact M'].
    unfold go_complement_row, complement_row. apply sim_foldM; [exact M|]. intros [h1 o1] g1 v _ M1. eapply sim_bind; [exact (getitem_sim h o v K)|]. intros r d (<- & Hr). cbn [sim]. rewrite (making_read h h1 o1 g1 r M1 Hr).
    destruct (dmem (gread h r) u); [exact M1|]. apply (making_does h (h1, o1) g1 (fun ho => go_add_edge ho u v 1) (fun g => add_edge g u v 1) M1 (add_edge_does u v 1)). }
  apply G. apply (making_does h (h, []) empty_graph (fun ho => fold_left go_add_vertex (zsort (dkeys o)) ho) (fun g => fold_left add_vertex (zsort (dkeys o)) g)); [apply making_start|]. exact (does_fold go_add_vertex add_vertex _ add_vertex_does).
Qed.

Lemma copy_making h o : okobj h o -> making h (go_copy h o) (graph_of h o).
Proof. intros K. exact (copy_ok h o K). Qed.
Lemma making_delete_vertices h ho g l : making h ho g -> making h (go_delete_vertices ho l) (delete_vertices g l).
Proof. intros (A & <-). destruct ho as [h1 o1]. cbn [fst snd] in *. destruct (delete_vertices_ok l h1 o1) as (B & C); [apply A|]. split; [exact (evolves_trans _ _ _ _ _ _ A B)|exact C]. Qed.
Lemma neighbors_sim h o u : okobj h o -> sim eq (go_neighbors h o u) (neighbors (graph_of h o) u).
Proof. intros K. unfold go_neighbors, neighbors. eapply sim_bind; [exact (getitem_sim h o u K)|]. intros r d (<- & _). reflexivity. Qed.
Lemma remove_neighborhood_sim ord h o u : okobj h o -> sim (making h) (go_remove_neighborhood ord h o u) (remove_neighborhood ord (graph_of h o) u).
Proof. intros K. unfold go_remove_neighborhood, remove_neighborhood. eapply sim_bind; [exact (neighbors_sim h o u K)|]. intros a b <-. cbn [sim]. apply making_delete_vertices, copy_making, K. Qed.
Lemma remove_closed_neighborhood_sim ord h o u : okobj h o -> sim (making h) (go_remove_closed_neighborhood ord h o u) (remove_closed_neighborhood ord (graph_of h o) u).
Proof.
  intros K. unfold go_remove_closed_neighborhood, remove_closed_neighborhood, closed_neighborhood. pose proof (neighbors_sim h o u K) as G. destruct (go_neighbors h o u) as [a|e|], (neighbors (graph_of h o) u) as [b|e'|]; cbn [sim] in G; try contradiction; cbn [bind sim]; [|exact G|exact G].
  subst b. apply making_delete_vertices, copy_making, K.
Qed.
