(** * C94: gabow generates the spanning trees in the order of their weights *)
From Coq Require Import ZArith List Bool Lia Sorting.Sorted Sorting.Permutation.
From Verif Require Import Base Py Lists Dict Gen Graph_Model Graph_Spec Graph_Proofs UF_Model Trav_Spec Trav_Proofs Trav_Proofs2 Paths_Model MST_Model MST_Spec MST_Proofs
  Gab_Spec Gab_Model Gab_Proofs3 Gab_Proofs5 Gab_Proofs6 Gab_Proofs7.
Import ListNotations.
Open Scope Z_scope.

(** Whatever the order of the set of edges and whatever heap of the standard library's kind is used: the pairs generated are
    spanning trees with their weights, none of them twice, by increasing weight; a tree that has not been generated weighs at
    least as much as each of them. The generator ends when there are k trees (one, if k is not positive) or when there is no
    further tree. The only exception is TypeError. *)
Theorem C94_gabow : forall g ord push pop k fuel, undirected g -> connected g -> g <> [] -> (forall l, Permutation (ord l) l) ->
  heapq e_weight entry_tie push pop ->
  exists l st, gabow push pop ord g k fuel = (l, st) /\
    (forall W T, In (W, T) l -> tree_of g W T) /\ NoDup (map snd l) /\ StronglySorted (fun a b => fst a <= fst b) l /\
    (forall W T W' T', In (W, T) l -> tree_of g W' T' -> ~ In T' (map snd l) -> W <= W') /\
    (forall k0, k = Some k0 -> Z.of_nat (length l) <= Z.max 1 k0) /\
    match st with
    | GEnded => (forall W T, tree_of g W T -> In T (map snd l)) \/ exists k0, k = Some k0 /\ Z.of_nat (length l) = Z.max 1 k0
    | GMore => length l = S fuel
    | GRaised e => e = TypeError
    | GStuck => False
    end.
Proof.
  intros g ord push pop k fuel Hg Hc Ne Ho Hh. pose proof (gabow_ok g ord Hg Hc Ho push pop Hh k fuel Ne) as H. destruct (gabow push pop ord g k fuel) as (l & st). destruct H as ((F1 & F2 & F3 & F4) & _ & _ & L2 & S). exists l, st. split; [reflexivity|]. split; [exact F1|]. split; [exact F2|]. split; [exact F3|]. split; [|split; assumption]. intros W T W' T' I HT N. apply (F4 W' T' HT N W T I).
Qed.

(** The first one is a minimum spanning tree. *)
Theorem C94_gabow_first : forall g ord push pop k fuel, undirected g -> connected g -> g <> [] -> (forall l, Permutation (ord l) l) ->
  heapq e_weight entry_tie push pop ->
  exists W T l, fst (gabow push pop ord g k fuel) = (W, T) :: l /\ minimum_spanning_tree g (map fst g) T W.
Proof.
  intros g ord push pop k fuel Hg Hc Ne Ho Hh. pose proof (gabow_ok g ord Hg Hc Ho push pop Hh k fuel Ne) as H. destruct (gabow push pop ord g k fuel) as (l & st). destruct H as ((F1 & F2 & F3 & F4) & Nl & _). destruct l as [|(W & T) l]; [contradiction|]. exists W, T, l. split; [reflexivity|].
  destruct (F1 W T (or_introl eq_refl)) as (S1 & S2 & S3). split; [exact S1|]. split; [exact S3|]. intros T' W' H1 H2. pose proof (tree_of_canon g Hg T' W' H1 H2) as HT.
  destruct (in_dec (list_eq_dec (fun a b : Z * Z => ltac:(decide equality; apply Z.eq_dec))) (canon T') (map snd ((W, T) :: l))) as [I|I]; [|apply (F4 W' _ HT I W T); left; reflexivity].
  apply in_map_iff in I as ((W1 & T1) & E & I). cbn in E. subst T1. rewrite <- (tree_weight g W1 W' _ (F1 _ _ I) HT). destruct I as [I|I]; [injection I as <- _; lia|]. inversion F3 as [|? ? _ Q]; subst. rewrite Forall_forall in Q. apply (Q (W1, canon T') I).
Qed.

(** The generator does not go on for ever: a graph with m edges has at most 2^m spanning trees. *)
Theorem C94_gabow_ends : forall g ord push pop k fuel, undirected g -> connected g -> g <> [] -> (forall l, Permutation (ord l) l) ->
  heapq e_weight entry_tie push pop -> (2 ^ length (edge_set g) <= fuel)%nat -> snd (gabow push pop ord g k fuel) <> GMore.
Proof.
  intros g ord push pop k fuel Hg Hc Ne Ho Hh L. pose proof (gabow_ok g ord Hg Hc Ho push pop Hh k fuel Ne) as H. destruct (gabow push pop ord g k fuel) as (l & st). destruct H as ((F1 & F2 & _) & _ & _ & _ & S). cbn [snd]. intros ->. pose proof (trees_bound g l Hg F1 F2). lia.
Qed.

(** A graph without vertices. *)
Theorem C94_gabow_empty : forall push pop ord k fuel, gabow push pop ord [] k fuel = ([], GRaised IndexError).
Proof. reflexivity. Qed.

(** A graph that is not connected: no tree is ever generated. If there is an edge that cannot be reached from the least
    vertex, KeyError is raised, otherwise (all vertices that cannot be reached are isolated) TypeError. *)
Theorem C94_gabow_disconnected : forall g ord push pop k fuel root, undirected g -> ~ connected g -> (forall l, Permutation (ord l) l) ->
  vertex g root -> (forall u, vertex g u -> root <= u) ->
  ((exists x y, edge g x y /\ ~ reachable g root x) -> gabow push pop ord g k fuel = ([], GRaised KeyError)) /\
  (~ (exists x y, edge g x y /\ ~ reachable g root x) -> gabow push pop ord g k fuel = ([], GRaised TypeError)).
Proof.
  intros g ord push pop k fuel root Hg Nc Ho Hr Least. destruct (bfs_list_ok g Hg root Hr) as (V & _ & _ & HR & _).
  assert (Dec : forall v, reachable g root v \/ ~ reachable g root v) by (intros v; destruct (in_dec Z.eq_dec v V) as [I|I]; rewrite HR in I; auto).
  assert (Ex : exists v, vertex g v /\ ~ reachable g root v).
  { destruct (Exists_dec (fun v => ~ reachable g root v) (map fst g)) as [Q|Q].
    - intros v. destruct (in_dec Z.eq_dec v V) as [I|I]; rewrite HR in I; [right; tauto|left; exact I].
    - apply Exists_exists in Q. exact Q.
    - exfalso. apply Nc. assert (A : forall v, vertex g v -> reachable g root v). { intros v Iv. destruct (Dec v) as [R|R]; [exact R|]. destruct Q. apply Exists_exists. exists v. split; assumption. }
      intros u v Hu Hv. apply (reach_trans g u root v); [apply (reach_sym g Hg), A, Hu|apply A, Hv]. }
  destruct Ex as (v & Hv & Nv). destruct (gabow_apart g ord root Hg Ho Hr push pop k fuel v Hv Nv Least) as (H1 & H2). split; [exact H1|].
  intros N. apply H2. intros x y Exy. destruct (Dec x) as [R|R]; [exact R|]. destruct N. eauto.
Qed.

(** The hypotheses are met by two edges without a common end, and by an edge and an isolated vertex. *)
Definition two_edges : graph := [(1, [(2, 5)]); (2, [(1, 5)]); (3, [(4, 6)]); (4, [(3, 6)])].
Definition edge_and_vertex : graph := [(3, []); (1, [(2, 5)]); (2, [(1, 5)])].
Example C94_disconnected_examples : undirected two_edges /\ ~ connected two_edges /\ undirected edge_and_vertex /\ ~ connected edge_and_vertex /\
  (forall push pop, gabow push pop (fun l => l) two_edges None 3 = ([], GRaised KeyError)) /\
  (forall push pop, gabow push pop (fun l => l) edge_and_vertex None 3 = ([], GRaised TypeError)).
Proof.
  split; [change two_edges with (add_edges empty_graph [(1, 2, 5); (3, 4, 6)]); apply (add_edges_ok _ empty_graph empty_undirected)|]. split; [|split; [|split; [|split; intros; vm_compute; reflexivity]]].
  - intros C. destruct (C 1 3) as (n & W); [cbn; tauto|cbn; tauto|]. assert (Q : forall n v, walk two_edges 1 n v -> v = 1 \/ v = 2). { clear. intros n v W. induction W as [|n u v W IH E]; [auto|]. destruct E as (w & E). destruct IH as [->| ->]; [change (dget [(2, 5)] v = Some w) in E|change (dget [(1, 5)] v = Some w) in E]; apply dget_Some_In in E; destruct E as [E|[]]; injection E as <- _; auto. }
    destruct (Q n 3 W); discriminate.
  - change edge_and_vertex with (add_edges (add_vertex empty_graph 3) [(1, 2, 5)]). apply add_edges_ok. destruct empty_undirected as (E1 & E2 & E3 & E4). destruct (add_vertex_wfd empty_graph 3) as (N1 & N2); [split; [exact E1|apply (wfd_In _ E1), E2]|].
    split; [exact N1|]. split; [apply (wfd_In _ N1), N2|]. split; [intros u v (w & H)|intros u v]; rewrite !add_vertex_weight in *; [discriminate|apply E4].
  - intros C. destruct (C 1 3) as (n & W); [cbn; tauto|cbn; tauto|]. assert (Q : forall n v, walk edge_and_vertex 1 n v -> v = 1 \/ v = 2). { clear. intros n v W. induction W as [|n u v W IH E]; [auto|]. destruct E as (w & E). destruct IH as [->| ->]; [change (dget [(2, 5)] v = Some w) in E|change (dget [(1, 5)] v = Some w) in E]; apply dget_Some_In in E; destruct E as [E|[]]; injection E as <- _; auto. }
    destruct (Q n 3 W); discriminate.
Qed.

(** The claim that all trees are generated and that the generator then ends is false: on the triangle with the weights 1, 2
    and 3 it raises TypeError after the third and last tree, whenever heappush compares an entry with the only other entry
    of the heap, as it must: the entries (inf, None, None, father, ...) of two trees are not comparable. *)
Definition triangle : graph := [(1, [(2, 1); (3, 2)]); (2, [(1, 1); (3, 3)]); (3, [(1, 2); (2, 3)])].
Definition triangle_trees : list (Z * list (Z * Z)) := [(3, [(1, 2); (1, 3)]); (4, [(1, 2); (2, 3)]); (5, [(1, 3); (2, 3)])].

Lemma sorted_key_eq (key : Z * Z -> Z) : forall l l', StronglySorted (fun a b => key a <= key b) l -> StronglySorted (fun a b => key a <= key b) l' ->
  Permutation l l' -> (forall x y, In x l -> In y l -> key x = key y -> x = y) -> l = l'.
Proof.
  induction l as [|x l IH]; intros l' S1 S2 P Inj; [apply Permutation_nil in P; congruence|]. destruct l' as [|y l']; [apply Permutation_sym, Permutation_nil in P; discriminate|].
  inversion S1 as [|? ? S1' F1]; subst. inversion S2 as [|? ? S2' F2]; subst. rewrite Forall_forall in F1, F2.
  assert (x = y). { assert (Iy : In y (x :: l)) by (apply (Permutation_in _ (Permutation_sym P)); left; reflexivity). assert (Ix : In x (y :: l')) by (apply (Permutation_in _ P); left; reflexivity). destruct Iy as [Iy|Iy]; [exact Iy|]. destruct Ix as [Ix|Ix]; [congruence|]. apply Inj; [left; reflexivity|right; exact Iy|]. specialize (F1 y Iy). specialize (F2 x Ix). lia. }
  subst y. f_equal. apply IH; [assumption|assumption|apply (Permutation_cons_inv P)|]. intros a b Ia Ib. apply Inj; right; assumption.
Qed.

Lemma tie_irr x : ~ entry_tie x x.
Proof. intros (_ & _ & _ & v & H). apply H. reflexivity. Qed.

Theorem C94_gabow_refuted : undirected triangle /\ connected triangle /\ forall ord push pop fuel, (forall l, Permutation (ord l) l) ->
  heapq e_weight entry_tie push pop -> (forall x y, entry_tie x y -> push [y] x = Raise TypeError) ->
  gabow push pop ord triangle None (S (S fuel)) = (triangle_trees, GRaised TypeError).
Proof.
  assert (Hg : undirected triangle).
  { change triangle with (add_edges empty_graph [(1, 2, 1); (1, 3, 2); (2, 3, 3)]). apply (add_edges_ok _ empty_graph empty_undirected). }
  split; [exact Hg|]. split.
  - assert (R1 : forall v, vertex triangle v -> reachable triangle 1 v /\ reachable triangle v 1). { intros v Hv. cbn in Hv. destruct Hv as [<-|[<-|[<-|[]]]]; (split; [|]); try (exists O; constructor; fail); exists 1%nat; apply (walk_S _ _ 0 _ _ (walk_0 _ _)); eexists; vm_compute; reflexivity. }
    intros u v Hu Hv. destruct (R1 u Hu) as (_ & (n & Wn)). destruct (R1 v Hv) as ((m & Wm) & _). exists (n + m)%nat. clear - Wn Wm. induction Wm as [|m w v Wm IH E]; [rewrite Nat.add_0_r; exact Wn|rewrite Nat.add_succ_r; apply (walk_S _ _ _ _ _ IH E)].
  - intros ord push pop fuel Ho (heap & H1 & H2 & H3) Hc. unfold gabow.
    assert (Ee : sorted_edges ord triangle = [(1, 2); (1, 3); (2, 3)]).
    { apply (sorted_key_eq (arc_key triangle)); [apply sort_key_sorted|repeat constructor; vm_compute; discriminate|unfold sorted_edges; rewrite sort_key_perm; apply Ho|].
      assert (Q : Permutation (sorted_edges ord triangle) [(1, 2); (1, 3); (2, 3)]) by (unfold sorted_edges; rewrite sort_key_perm; apply Ho).
      intros x y Ix Iy E. apply (Permutation_in _ Q) in Ix, Iy. destruct Ix as [<-|[<-|[<-|[]]]], Iy as [<-|[<-|[<-|[]]]]; try reflexivity; vm_compute in E; discriminate. }
    rewrite Ee. change (vertices triangle) with [1; 2; 3]. cbv iota.
    replace (prim_previous triangle (Some 1)) with (Ret (3, [(1, None); (2, Some 1); (3, Some 1)])) by (vm_compute; reflexivity). cbv iota.
    change (dset [(1, None); (2, Some 1); (3, Some 1)] 1 (Some 1)) with [(1, Some 1); (2, Some 1); (3, Some 1)].
    set (f1 := [(1, Some 1); (2, Some 1); (3, Some 1)]). set (es := [(1, 2); (1, 3); (2, 3)]). cbv zeta.
    replace (find_exchange triangle es f1 [] [] []) with (Ret ((Some 1, Some (3, 1), Some (2, 3)), @nil (Z * Z))) by (vm_compute; reflexivity). cbv iota.
    change (add_inf 3 (Some 1)) with (Some 4). set (x0 := Entry (Some 4) (Some (3, 1)) (Some (2, 3)) f1 [] []).
    assert (P1 : pop [x0] = Ret (x0, []) /\ heap []).
    { destruct (H3 [x0] (H1 x0)) as [(x & h & E & Pm & Hh & _)|(_ & x & y & [<-|[]] & [<-|[]] & T)]; [discriminate| |destruct (tie_irr _ T)]. apply Permutation_length_1_inv in Pm. injection Pm as -> ->. auto. }
    destruct P1 as (P1 & Hn). set (f2 := [(1, Some 1); (2, Some 1); (3, Some 2)]).
    set (a := Entry (Some 5) (Some (2, 1)) (Some (2, 3)) f1 [(3, 1)] []). set (b := Entry None None None f2 [] [(3, 1)]).
    assert (P2 : push [] a = Ret [a] /\ heap [a]).
    { destruct (H2 [] a Hn) as [(h & E & Pm & Hh)|(_ & y & [] & _)]. apply Permutation_sym, Permutation_length_1_inv in Pm. subst h. auto. }
    destruct P2 as (P2 & Ha).
    destruct (H2 [a] b Ha) as [(h2 & P3 & Pm3 & Hh2)|(_ & y & [<-|[]] & (Q & _))]; [|discriminate].
    assert (P4 : pop h2 = Ret (a, [b])).
    { assert (Nh : h2 <> []) by (intros ->; apply Permutation_nil in Pm3; discriminate). destruct (H3 h2 Hh2 Nh) as [(x & h & E & Pm & _ & Le)|(_ & x & y & Ix & Iy & T)].
      - rewrite Pm3 in Pm. apply Permutation_length_2_inv in Pm. destruct Pm as [Pm|Pm]; injection Pm as -> ->; [|exact E]. exfalso. apply (Le a). left. reflexivity.
      - exfalso. apply (Permutation_in _ Pm3) in Ix, Iy. destruct Ix as [<-|[<-|[]]], Iy as [<-|[<-|[]]]; try (destruct (tie_irr _ T)); destruct T as (Q & _); discriminate. }
    set (a' := Entry None None None f1 [(3, 1); (2, 1)] []). assert (P5 : push [b] a' = Raise TypeError). { apply Hc. split; [reflexivity|]. split; [reflexivity|]. split; [reflexivity|]. exists 3. vm_compute. discriminate. }
    cbn [gabow_loop]. rewrite P1. cbn [e_weight e_e e_f x0 e_father].
    replace (exchange_tree f1 1 (3, 1) (2, 3)) with (Ret f2) by (vm_compute; reflexivity).
    assert (G1 : gabow_push push triangle es [] [] x0 4 (3, 1) (2, 3) f2 = Ret (h2, [])).
    { unfold gabow_push. cbn [fst snd x0 e_father e_in e_out app]. replace (arc_weight triangle 2 3) with (Ret 3) by (vm_compute; reflexivity). replace (arc_weight triangle 3 1) with (Ret 2) by (vm_compute; reflexivity). cbn [bind].
      replace (find_exchange triangle es f1 [(3, 1)] [] []) with (Ret ((Some 2, Some (2, 1), Some (2, 3)), @nil (Z * Z))) by (vm_compute; reflexivity). cbn [bind].
      change (Entry (add_inf (4 - 3 + 2) (Some 2)) (Some (2, 1)) (Some (2, 3)) f1 [(3, 1)] []) with a. rewrite P2. cbn [bind].
      replace (find_exchange triangle es f2 [] [(3, 1)] []) with (Ret ((None, None, None) : best, @nil (Z * Z))) by (vm_compute; reflexivity). cbn [bind].
      change (Entry (add_inf 4 None) None None f2 [] [(3, 1)]) with b. rewrite P3. reflexivity. }
    rewrite G1. rewrite P4. cbn [e_weight e_e e_f a e_father].
    replace (exchange_tree f1 1 (2, 1) (2, 3)) with (Ret [(1, Some 1); (3, Some 1); (2, Some 3)]) by (vm_compute; reflexivity). set (f3 := [(1, Some 1); (3, Some 1); (2, Some 3)]).
    assert (G2 : gabow_push push triangle es [b] [] a 5 (2, 1) (2, 3) f3 = Raise TypeError).
    { unfold gabow_push. cbn [fst snd a e_father e_in e_out app]. replace (arc_weight triangle 2 3) with (Ret 3) by (vm_compute; reflexivity). replace (arc_weight triangle 2 1) with (Ret 1) by (vm_compute; reflexivity). cbn [bind].
      replace (find_exchange triangle es f1 [(3, 1); (2, 1)] [] []) with (Ret ((None, None, None) : best, @nil (Z * Z))) by (vm_compute; reflexivity). cbn [bind].
      change (Entry (add_inf (5 - 3 + 1) None) None None f1 [(3, 1); (2, 1)] []) with a'. rewrite P5. reflexivity. }
    rewrite G2. vm_compute. reflexivity.
Qed.

Print Assumptions C94_gabow.
Print Assumptions C94_gabow_first.
Print Assumptions C94_gabow_ends.
Print Assumptions C94_gabow_empty.
Print Assumptions C94_gabow_disconnected.
Print Assumptions C94_gabow_refuted.

(** ** Heaps of this kind exist *)
Definition wleb (x y : entry) : bool := match e_weight x, e_weight y with Some a, Some b => a <=? b | _, None => true | None, Some _ => false end.
Fixpoint list_pop (h : list entry) : outcome (entry * list entry) :=
  match h with
  | [] => Raise IndexError
  | x :: h => match list_pop h with Ret (y, h') => if wleb x y then Ret (x, h) else Ret (y, x :: h') | _ => Ret (x, h) end
  end.
Definition list_push (h : list entry) (x : entry) : outcome (list entry) := Ret (h ++ [x]).

Lemma wleb_le x y : wleb x y = true <-> le_inf (e_weight x) (e_weight y).
Proof. unfold wleb, le_inf. destruct (e_weight x), (e_weight y); [apply Z.leb_le| | |]; intuition discriminate. Qed.
Lemma wleb_total x y : wleb x y = false -> le_inf (e_weight y) (e_weight x).
Proof. unfold wleb, le_inf. destruct (e_weight x), (e_weight y); intros E; try discriminate; [apply Z.leb_gt in E; lia|exact I]. Qed.
Lemma le_inf_trans a b c : le_inf a b -> le_inf b c -> le_inf a c.
Proof. unfold le_inf. destruct a, b, c; intuition lia. Qed.
Lemma list_pop_ok : forall h, h <> [] -> exists x h', list_pop h = Ret (x, h') /\ Permutation h (x :: h') /\ forall y, In y h' -> le_inf (e_weight x) (e_weight y).
Proof.
  induction h as [|x h IH]; intros N; [contradiction|]. cbn [list_pop]. destruct h as [|z h].
  - exists x, []. split; [reflexivity|]. split; [reflexivity|intros y []].
  - destruct IH as (y & h' & E & P & L); [discriminate|]. rewrite E. destruct (wleb x y) eqn:Q.
    + exists x, (z :: h). split; [reflexivity|]. split; [reflexivity|]. apply wleb_le in Q. intros u Iu. apply (Permutation_in _ P) in Iu. destruct Iu as [<-|Iu]; [exact Q|apply (le_inf_trans _ _ _ Q (L u Iu))].
    + exists y, (x :: h'). split; [reflexivity|]. split; [rewrite P; apply perm_swap|]. intros u [<-|Iu]; [apply wleb_total, Q|apply L, Iu].
Qed.
Example C94_heap : heapq e_weight entry_tie list_push list_pop.
Proof.
  exists (fun _ => True). split; [auto|]. split.
  - intros h x _. left. exists (h ++ [x]). split; [reflexivity|]. split; [symmetry; apply Permutation_cons_append|exact I].
  - intros h _ N. left. destruct (list_pop_ok h N) as (x & h' & E & P & L). exists x, h'. auto.
Qed.

(** One that compares the new entry with all others. *)
Definition opt_eqb (a b : option (Z * Z)) : bool := match a, b with Some (x, y), Some (u, v) => (x =? u) && (y =? v) | None, None => true | _, _ => false end.
Definition ext_eqb (a b : option (option Z)) : bool := match a, b with Some (Some x), Some (Some y) => x =? y | Some None, Some None => true | None, None => true | _, _ => false end.
Definition tieb (x y : entry) : bool :=
  match e_weight x, e_weight y with Some a, Some b => a =? b | None, None => true | _, _ => false end && opt_eqb (e_e x) (e_e y) && opt_eqb (e_f x) (e_f y) &&
  existsb (fun v => negb (ext_eqb (dget (e_father x) v) (dget (e_father y) v))) (map fst (e_father x) ++ map fst (e_father y)).
Definition strict_push (h : list entry) (x : entry) : outcome (list entry) := if existsb (tieb x) h then Raise TypeError else Ret (h ++ [x]).
Lemma tieb_spec x y : tieb x y = true <-> entry_tie x y.
Proof.
  assert (O : forall a b, opt_eqb a b = true <-> a = b). { intros [(p & q)|] [(r & s)|]; cbn; rewrite ?andb_true_iff, ?Z.eqb_eq; intuition congruence. }
  assert (X : forall a b, ext_eqb a b = true <-> a = b). { intros [[p|]|] [[q|]|]; cbn; rewrite ?Z.eqb_eq; intuition congruence. }
  unfold tieb, entry_tie. rewrite !andb_true_iff, !O, existsb_exists.
  assert (E1 : match e_weight x, e_weight y with Some a, Some b => a =? b | None, None => true | _, _ => false end = true <-> e_weight x = e_weight y). { destruct (e_weight x), (e_weight y); rewrite ?Z.eqb_eq; intuition congruence. }
  rewrite E1. assert (E2 : (exists v, In v (map fst (e_father x) ++ map fst (e_father y)) /\ negb (ext_eqb (dget (e_father x) v) (dget (e_father y) v)) = true) <-> exists v, dget (e_father x) v <> dget (e_father y) v).
  { split; intros (v & H); exists v.
    - destruct H as (_ & H). apply negb_true_iff in H. intros E. apply X in E. congruence.
    - split; [|destruct (ext_eqb _ _) eqn:Q; [apply X in Q; contradiction|reflexivity]]. apply in_or_app. destruct (dget (e_father x) v) as [o|] eqn:Q1; [left; apply dget_Some_In in Q1; apply (in_map fst) in Q1; exact Q1|]. destruct (dget (e_father y) v) as [o|] eqn:Q2; [right; apply dget_Some_In in Q2; apply (in_map fst) in Q2; exact Q2|]. congruence. }
  rewrite E2. tauto.
Qed.
Example C94_strict_heap : heapq e_weight entry_tie strict_push list_pop /\ forall x y, entry_tie x y -> strict_push [y] x = Raise TypeError.
Proof.
  split; [|intros x y T; unfold strict_push; cbn [existsb]; rewrite (proj2 (tieb_spec x y) T); reflexivity].
  exists (fun _ => True). split; [auto|]. split.
  - intros h x _. unfold strict_push. destruct (existsb (tieb x) h) eqn:E.
    + right. split; [reflexivity|]. apply existsb_exists in E as (y & Iy & T). exists y. split; [exact Iy|apply tieb_spec, T].
    + left. exists (h ++ [x]). split; [reflexivity|]. split; [symmetry; apply Permutation_cons_append|exact I].
  - intros h _ N. left. destruct (list_pop_ok h N) as (x & h' & E & P & L). exists x, h'. auto.
Qed.

(** A square with a diagonal has eight spanning trees; with k = 3 the first three are generated. *)
Definition square : graph := add_edges empty_graph [(1, 2, 1); (2, 3, 2); (3, 4, 3); (1, 4, 4); (1, 3, 5)].
Example C94_square : undirected square /\ gabow list_push list_pop (fun l => l) square None 20 =
  ([(6, [(1, 2); (2, 3); (3, 4)]); (7, [(1, 2); (1, 4); (2, 3)]); (8, [(1, 2); (1, 4); (3, 4)]); (9, [(1, 4); (2, 3); (3, 4)]);
    (9, [(1, 2); (1, 3); (3, 4)]); (10, [(1, 2); (1, 3); (1, 4)]); (10, [(1, 3); (2, 3); (3, 4)]); (11, [(1, 3); (1, 4); (2, 3)])], GEnded) /\
  gabow list_push list_pop (fun l => l) square (Some 3) 20 = ([(6, [(1, 2); (2, 3); (3, 4)]); (7, [(1, 2); (1, 4); (2, 3)]); (8, [(1, 2); (1, 4); (3, 4)])], GEnded).
Proof. split; [apply (add_edges_ok _ empty_graph empty_undirected)|]. split; vm_compute; reflexivity. Qed.
