(** * Named graphs: the properties *)
From Coq Require Import ZArith List Bool Lia Sorting.Permutation.
From Verif Require Import Base Py Lists Lists2 Dict Graph_Model Graph_Spec Graph_Proofs Graph_Proofs2.
Import ListNotations.
Open Scope Z_scope.

(** A graph made by adding edges of weight 1 to a graph without edges. *)
Lemma unit_edges h L (V : Z -> Prop) (E : Z -> Z -> Prop) :
  wfd h -> (forall x y, weight h x y = None) -> (forall u v w, In (u, v, w) L -> w = 1) ->
  (forall x, vertex h x \/ (exists u v w, In (u, v, w) L /\ (x = u \/ x = v)) <-> V x) ->
  (forall x y, (exists u v w, In (u, v, w) L /\ same_pair u v x y) <-> E x y) ->
  undirected (add_edges h L) /\ (forall x, vertex (add_edges h L) x <-> V x) /\
  (forall x y, (E x y -> weight (add_edges h L) x y = Some 1) /\ (~ E x y -> weight (add_edges h L) x y = None)).
Proof.
  intros Hw W H1 HV HE. destruct (add_edges_fun (fun _ _ => 1) L h (edgeless_undirected h Hw W)) as (A & B & C); [reflexivity|exact H1|].
  split; [exact A|]. split; [intros x; rewrite B; apply HV|]. intros x y. destruct (C x y) as (C1 & C2). split.
  - intros H. apply C1, HE, H.
  - intros H. rewrite C2; [apply W|]. intros u v w Hin S. apply H, HE. exists u, v, w. auto.
Qed.

Lemma empty_wfd : wfd empty_graph.
Proof. split; [constructor|]. intros u a H. discriminate. Qed.

Definition complete_edges (n : Z) : list (Z * Z * Z) := flat_map (fun u => map (fun v => (u, v, 1)) (zrange 0 u)) (zrange 0 n).
Lemma complete_graph_eq n : complete_graph n = add_edges empty_graph (complete_edges n).
Proof.
  unfold complete_graph, add_edges, complete_edges. rewrite fold_left_flat_map. apply fold_left_ext. intros g u _. rewrite fold_left_map. reflexivity.
Qed.

(** C74: complete_graph(n) for n <> 1. *)
Theorem C74_complete_graph n : n <> 1 -> undirected (complete_graph n) /\ (forall x, vertex (complete_graph n) x <-> 0 <= x < n) /\
  (forall x y, (0 <= x < n /\ 0 <= y < n /\ x <> y -> weight (complete_graph n) x y = Some 1) /\
               (~ (0 <= x < n /\ 0 <= y < n /\ x <> y) -> weight (complete_graph n) x y = None)).
Proof.
  intros Hn. rewrite complete_graph_eq.
  assert (I : forall u v w, In (u, v, w) (complete_edges n) <-> 0 <= v < u /\ u < n /\ w = 1).
  { intros u v w. unfold complete_edges. rewrite in_flat_map. split.
    - intros (x & Hx & H). apply in_map_iff in H as (y & E & Hy). injection E as -> -> <-. apply zrange_In in Hx, Hy. lia.
    - intros (H1 & H2 & ->). exists u. split; [apply zrange_In; lia|]. apply in_map_iff. exists v. split; [reflexivity|apply zrange_In; lia]. }
  apply unit_edges; [apply empty_wfd|reflexivity|intros u v w H; apply I in H; lia| |].
  - intros x. split.
    + intros [[]|(u & v & w & H & X)]. apply I in H. lia.
    + intros H. right. destruct (Z.eq_dec x 0) as [->|H0].
      * exists 1, 0, 1. split; [apply I; lia|auto].
      * exists x, 0, 1. split; [apply I; lia|auto].
  - intros x y. split.
    + intros (u & v & w & H & S). apply I in H. unfold same_pair in S. lia.
    + intros (Hx & Hy & Hne). destruct (Z.lt_ge_cases x y) as [L|L].
      * exists y, x, 1. split; [apply I; lia|right; auto].
      * exists x, y, 1. split; [apply I; lia|left; auto].
Qed.
Print Assumptions C74_complete_graph.

(** C74: complete_graph(1) has no vertices at all. *)
Theorem C74_complete_graph_refuted : complete_graph 1 = empty_graph /\ ~ vertex (complete_graph 1) 0.
Proof. split; [reflexivity|]. intros []. Qed.
Print Assumptions C74_complete_graph_refuted.

(** C74: coprime_pairs_graph(n) for n >= 2. *)
Definition coprime_edges (n : Z) : list (Z * Z * Z) := flat_map (fun i => map (fun j => (i, j, 1)) (filter (fun j => Z.gcd i j =? 1) (zrange 1 i))) (zrange 1 (n + 1)).
Lemma fold_left_filter {A B} (f : A -> B -> A) (p : B -> bool) l : forall a, fold_left f (filter p l) a = fold_left (fun a x => if p x then f a x else a) l a.
Proof. induction l as [|x l IH]; intros a; [reflexivity|]. cbn [filter fold_left]. destruct (p x); cbn [fold_left]; apply IH. Qed.

Theorem C74_coprime_pairs_graph n : 2 <= n -> undirected (coprime_pairs_graph n) /\ (forall x, vertex (coprime_pairs_graph n) x <-> 1 <= x <= n) /\
  (forall x y, (1 <= x <= n /\ 1 <= y <= n /\ x <> y /\ Z.gcd x y = 1 -> weight (coprime_pairs_graph n) x y = Some 1) /\
               (~ (1 <= x <= n /\ 1 <= y <= n /\ x <> y /\ Z.gcd x y = 1) -> weight (coprime_pairs_graph n) x y = None)).
Proof.
  intros Hn.
  assert (E : coprime_pairs_graph n = add_edges empty_graph (coprime_edges n)).
  { unfold coprime_pairs_graph, add_edges, coprime_edges. rewrite fold_left_flat_map. apply fold_left_ext. intros g u _. rewrite fold_left_map, fold_left_filter. reflexivity. }
  rewrite E.
  assert (I : forall u v w, In (u, v, w) (coprime_edges n) <-> 1 <= v < u /\ u <= n /\ Z.gcd u v = 1 /\ w = 1).
  { intros u v w. unfold coprime_edges. rewrite in_flat_map. split.
    - intros (x & Hx & H). apply in_map_iff in H as (y & X & Hy). injection X as -> -> <-. apply filter_In in Hy as (Hy & G). apply Z.eqb_eq in G. apply zrange_In in Hx, Hy. lia.
    - intros (H1 & H2 & H3 & ->). exists u. split; [apply zrange_In; lia|]. apply in_map_iff. exists v. split; [reflexivity|]. apply filter_In. split; [apply zrange_In; lia|apply Z.eqb_eq, H3]. }
  apply unit_edges; [apply empty_wfd|reflexivity|intros u v w H; apply I in H; lia| |].
  - intros x. split.
    + intros [[]|(u & v & w & H & X)]. apply I in H. lia.
    + intros H. right. destruct (Z.eq_dec x 1) as [->|H0].
      * exists 2, 1, 1. split; [apply I; repeat split; lia|auto].
      * exists x, 1, 1. split; [apply I; repeat split; try lia; apply Z.gcd_1_r|auto].
  - intros x y. split.
    + intros (u & v & w & H & S). apply I in H as (H1 & H2 & H3 & ->). destruct S as [(-> & ->)|(-> & ->)]; [|rewrite Z.gcd_comm]; repeat split; lia.
    + intros (Hx & Hy & Hne & G). destruct (Z.lt_ge_cases x y) as [L|L].
      * exists y, x, 1. split; [apply I; rewrite Z.gcd_comm; repeat split; lia|right; auto].
      * exists x, y, 1. split; [apply I; repeat split; lia|left; auto].
Qed.
Print Assumptions C74_coprime_pairs_graph.

(** C74: grid_graph(n) for n >= 2: the n x n grid, the square in row i and column j being i*n + j. *)
Definition grid_edges (n : Z) : list (Z * Z * Z) :=
  flat_map (fun i => flat_map (fun j => (if j <? n - 1 then [(i * n + j, i * n + j + 1, 1)] else []) ++
    (if i * n + j + n <? n * n then [(i * n + j, i * n + j + n, 1)] else [])) (zrange 0 n)) (zrange 0 n).

Definition grid_adjacent (n x y : Z) : Prop :=
  exists i j i' j', x = i * n + j /\ y = i' * n + j' /\ 0 <= i < n /\ 0 <= j < n /\ 0 <= i' < n /\ 0 <= j' < n /\ Z.abs (i - i') + Z.abs (j - j') = 1.

Theorem C74_grid_graph n : 2 <= n -> undirected (grid_graph n) /\ (forall x, vertex (grid_graph n) x <-> 0 <= x < n * n) /\
  (forall x y, (grid_adjacent n x y -> weight (grid_graph n) x y = Some 1) /\ (~ grid_adjacent n x y -> weight (grid_graph n) x y = None)).
Proof.
  intros Hn.
  assert (E : grid_graph n = add_edges empty_graph (grid_edges n)).
  { unfold grid_graph, add_edges, grid_edges. rewrite fold_left_flat_map. apply fold_left_ext. intros g i _. rewrite fold_left_flat_map. apply fold_left_ext. intros h j _.
    rewrite fold_left_app. destruct (j <? n - 1), (i * n + j + n <? n * n); reflexivity. }
  rewrite E.
  assert (I : forall u v w, In (u, v, w) (grid_edges n) <-> w = 1 /\ exists i j, 0 <= i < n /\ 0 <= j < n /\ u = i * n + j /\ ((v = i * n + j + 1 /\ j < n - 1) \/ (v = (i + 1) * n + j /\ i + 1 < n))).
  { intros u v w. unfold grid_edges. rewrite in_flat_map. split.
    - intros (i & Hi & H). apply in_flat_map in H as (j & Hj & H). apply zrange_In in Hi, Hj. apply in_app_or in H as [H|H].
      + destruct (Z.ltb_spec j (n - 1)); [|destruct H]. destruct H as [X|[]]. injection X as <- <- <-. split; [reflexivity|]. exists i, j. repeat split; try lia.
      + destruct (Z.ltb_spec (i * n + j + n) (n * n)); [|destruct H]. destruct H as [X|[]]. injection X as <- <- <-. split; [reflexivity|]. exists i, j. repeat split; try lia.
        right. split; [ring|]. nia.
    - intros (-> & i & j & Hi & Hj & -> & H). exists i. split; [apply zrange_In; lia|]. apply in_flat_map. exists j. split; [apply zrange_In; lia|]. apply in_or_app.
      destruct H as [(-> & H)|(-> & H)].
      + left. destruct (Z.ltb_spec j (n - 1)); [left; reflexivity|lia].
      + right. destruct (Z.ltb_spec (i * n + j + n) (n * n)) as [L|L]; [left; f_equal; f_equal; ring|nia]. }
  apply unit_edges; [apply empty_wfd|reflexivity|intros u v w H; apply I in H; apply H| |].
  - intros x. split.
    + intros [[]|(u & v & w & H & X)]. apply I in H as (-> & i & j & Hi & Hj & -> & H). destruct X as [-> | ->]; nia.
    + intros H. right.
      assert (D : x = (x / n) * n + x mod n) by (pose proof (Z.div_mod x n ltac:(lia)); lia).
      assert (Hm : 0 <= x mod n < n) by (apply Z.mod_pos_bound; lia). assert (Hd : 0 <= x / n < n) by (split; [apply Z.div_pos; lia|apply Z.div_lt_upper_bound; lia]).
      remember (x / n) as i eqn:Ei. remember (x mod n) as j eqn:Ej. clear Ei Ej.
      destruct (Z.lt_ge_cases j (n - 1)) as [L|L].
      * exists (i * n + j), (i * n + j + 1), 1. split; [|left; lia]. apply I. split; [reflexivity|]. exists i, j. repeat split; try lia.
      * exists (i * n + (j - 1)), (i * n + (j - 1) + 1), 1. split; [|right; lia]. apply I. split; [reflexivity|]. exists i, (j - 1). repeat split; try lia.
  - intros x y. split.
    + intros (u & v & w & H & S). apply I in H as (-> & i & j & Hi & Hj & -> & H).
      destruct S as [(-> & ->)|(-> & ->)], H as [(-> & H)|(-> & H)].
      * exists i, j, i, (j + 1). repeat split; lia.
      * exists i, j, (i + 1), j. repeat split; lia.
      * exists i, (j + 1), i, j. repeat split; lia.
      * exists (i + 1), j, i, j. repeat split; lia.
    + intros (i & j & i' & j' & -> & -> & Hi & Hj & Hi' & Hj' & A).
      assert (C : (i = i' /\ j' = j + 1) \/ (i = i' /\ j = j' + 1) \/ (j = j' /\ i' = i + 1) \/ (j = j' /\ i = i' + 1)) by lia.
      destruct C as [(-> & ->)|[(-> & ->)|[(-> & ->)|(-> & ->)]]].
      * exists (i' * n + j), (i' * n + (j + 1)), 1. split; [|left; auto]. apply I. split; [reflexivity|]. exists i', j. repeat split; try lia.
      * exists (i' * n + j'), (i' * n + (j' + 1)), 1. split; [|right; auto]. apply I. split; [reflexivity|]. exists i', j'. repeat split; try lia.
      * exists (i * n + j'), ((i + 1) * n + j'), 1. split; [|left; auto]. apply I. split; [reflexivity|]. exists i, j'. repeat split; try lia.
      * exists (i' * n + j'), ((i' + 1) * n + j'), 1. split; [|right; auto]. apply I. split; [reflexivity|]. exists i', j'. repeat split; try lia.
Qed.
Print Assumptions C74_grid_graph.

(** C74: random_graph(n, d): all n vertices, and exactly the edges drawn. *)
Theorem C74_random_graph draw n : undirected (random_graph draw n) /\ (forall x, vertex (random_graph draw n) x <-> 0 <= x < n) /\
  (forall x y, (0 <= x < y /\ y < n /\ draw x y = true -> weight (random_graph draw n) x y = Some 1) /\
               (0 <= x < y /\ y < n /\ draw x y = false -> weight (random_graph draw n) x y = None) /\
               (~ (0 <= x < n /\ 0 <= y < n /\ x <> y) -> weight (random_graph draw n) x y = None)).
Proof.
  remember (flat_map (fun u => map (fun v => (u, v, 1)) (filter (draw u) (zrange (u + 1) n))) (zrange 0 n)) as L eqn:EL.
  assert (E : random_graph draw n = add_edges (add_vertices empty_graph (zrange 0 n)) L).
  { subst L. unfold random_graph, add_edges. rewrite fold_left_flat_map. apply fold_left_ext. intros g u _. rewrite fold_left_map, fold_left_filter. reflexivity. }
  rewrite E.
  assert (I : forall u v w, In (u, v, w) L <-> 0 <= u < v /\ v < n /\ draw u v = true /\ w = 1).
  { intros u v w. subst L. rewrite in_flat_map. split.
    - intros (x & Hx & H). apply in_map_iff in H as (y & X & Hy). injection X as -> -> <-. apply filter_In in Hy as (Hy & G). apply zrange_In in Hx, Hy. repeat split; try lia. exact G.
    - intros (H1 & H2 & H3 & ->). exists u. split; [apply zrange_In; lia|]. apply in_map_iff. exists v. split; [reflexivity|]. apply filter_In. split; [apply zrange_In; lia|exact H3]. }
  destruct (add_vertices_ok (zrange 0 n) empty_graph empty_wfd) as (A & B & C).
  destruct (unit_edges (add_vertices empty_graph (zrange 0 n)) L (fun x => 0 <= x < n) (fun x y => exists u v w, In (u, v, w) L /\ same_pair u v x y)) as (D & F & G).
  - exact A.
  - exact C.
  - intros u v w H. apply I in H. apply H.
  - intros x. rewrite B, zrange_In. split; [|auto]. intros [[[]|H]|(u & v & w & H & X)]; [exact H|]. apply I in H. lia.
  - intros x y. reflexivity.
  - split; [exact D|]. split; [exact F|]. intros x y. destruct (G x y) as (G1 & G2). split; [|split].
    + intros (H1 & H2 & H3). apply G1. exists x, y, 1. split; [apply I; auto|left; auto].
    + intros (H1 & H2 & H3). apply G2. intros (u & v & w & H & S). apply I in H as (H4 & H5 & H6 & _). destruct S as [(-> & ->)|(-> & ->)]; [congruence|lia].
    + intros H. apply G2. intros (u & v & w & Hin & S). apply I in Hin. unfold same_pair in S. lia.
Qed.
Print Assumptions C74_random_graph.

(** C74: petersen_graph(): its vertices 0, ..., 9 are labelled by [f] with the ten 2-element subsets
    {a, b}, a < b, of {0, 1, 2, 3, 4}, each subset once, and two of them are joined if and only if their
    subsets are disjoint. *)
Definition disjoint_pairs (p q : Z * Z) : Prop := fst p <> fst q /\ fst p <> snd q /\ snd p <> fst q /\ snd p <> snd q.

Theorem C74_petersen_graph : exists f : Z -> Z * Z,
  undirected petersen_graph /\ (forall x, vertex petersen_graph x <-> 0 <= x < 10) /\
  (forall x, vertex petersen_graph x -> 0 <= fst (f x) < snd (f x) /\ snd (f x) < 5) /\
  (forall a b, 0 <= a < b -> b < 5 -> exists x, vertex petersen_graph x /\ f x = (a, b)) /\
  (forall x y, vertex petersen_graph x -> vertex petersen_graph y -> f x = f y -> x = y) /\
  (forall x y, vertex petersen_graph x -> vertex petersen_graph y ->
     (disjoint_pairs (f x) (f y) -> weight petersen_graph x y = Some 1) /\
     (~ disjoint_pairs (f x) (f y) -> weight petersen_graph x y = None)).
Proof.
  exists (fun x => nth (Z.to_nat x) [(0, 1); (2, 3); (0, 4); (1, 2); (3, 4); (2, 4); (1, 4); (1, 3); (0, 3); (0, 2)] (0, 0)).
  assert (V : forall x, vertex petersen_graph x <-> In x (zrange 0 10)).
  { intros x. assert (K : map fst petersen_graph = [0; 1; 4; 5; 2; 6; 3; 7; 8; 9]) by (vm_compute; reflexivity).
    unfold vertex. rewrite K. change (zrange 0 10) with [0; 1; 2; 3; 4; 5; 6; 7; 8; 9]. split; intros H; repeat (destruct H as [<-|H]; [cbn [In]; tauto|]); destruct H. }
  assert (U : forall l, undirected (add_edges empty_graph l)) by (intros l; exact (history_undirected [OpAddEdges l])).
  split; [unfold petersen_graph; apply U|]. clear U.
  split; [intros x; rewrite V; apply zrange_In|].
  split; [|split; [|split]].
  - intros x H. apply (proj1 (V x)) in H.
    assert (T : forallb (fun x => let p := nth (Z.to_nat x) [(0, 1); (2, 3); (0, 4); (1, 2); (3, 4); (2, 4); (1, 4); (1, 3); (0, 3); (0, 2)] (0, 0) in
      (0 <=? fst p) && (fst p <? snd p) && (snd p <? 5)) (zrange 0 10) = true) by reflexivity.
    rewrite forallb_forall in T. specialize (T x H). cbv zeta in T. rewrite !andb_true_iff, Z.leb_le, !Z.ltb_lt in T. lia.
  - intros a b Ha Hb.
    assert (C : (a = 0 /\ (b = 1 \/ b = 2 \/ b = 3 \/ b = 4)) \/ (a = 1 /\ (b = 2 \/ b = 3 \/ b = 4)) \/ (a = 2 /\ (b = 3 \/ b = 4)) \/ (a = 3 /\ b = 4)) by lia.
    assert (W : exists x, In x (zrange 0 10) /\ nth (Z.to_nat x) [(0, 1); (2, 3); (0, 4); (1, 2); (3, 4); (2, 4); (1, 4); (1, 3); (0, 3); (0, 2)] (0, 0) = (a, b)).
    { destruct C as [(-> & [-> |[-> |[-> | ->]]])|[(-> & [-> |[-> | ->]])|[(-> & [-> | ->])|(-> & ->)]]];
        [exists 0|exists 9|exists 8|exists 2|exists 3|exists 7|exists 6|exists 1|exists 5|exists 4]; (split; [apply zrange_In; lia|reflexivity]). }
    destruct W as (x & H & E). exists x. split; [exact (proj2 (V x) H)|exact E].
  - intros x y Hx Hy E. apply (proj1 (V x)), zrange_In in Hx. apply (proj1 (V y)), zrange_In in Hy.
    apply (proj1 (NoDup_nth [(0, 1); (2, 3); (0, 4); (1, 2); (3, 4); (2, 4); (1, 4); (1, 3); (0, 3); (0, 2)] (0, 0))) in E; [lia| |cbn [length]; lia|cbn [length]; lia].
    repeat constructor; cbn [In]; intuition discriminate.
  - intros x y Hx Hy. apply (proj1 (V x)) in Hx. apply (proj1 (V y)) in Hy.
    assert (D : forall p q, negb (fst p =? fst q) && negb (fst p =? snd q) && negb (snd p =? fst q) && negb (snd p =? snd q) = true <-> disjoint_pairs p q).
    { intros p q. unfold disjoint_pairs. rewrite !andb_true_iff, !negb_true_iff, !Z.eqb_neq. tauto. }
    assert (T : forallb (fun x => forallb (fun y =>
      let p := nth (Z.to_nat x) [(0, 1); (2, 3); (0, 4); (1, 2); (3, 4); (2, 4); (1, 4); (1, 3); (0, 3); (0, 2)] (0, 0) in
      let q := nth (Z.to_nat y) [(0, 1); (2, 3); (0, 4); (1, 2); (3, 4); (2, 4); (1, 4); (1, 3); (0, 3); (0, 2)] (0, 0) in
      match weight petersen_graph x y with
      | Some w => (w =? 1) && (negb (fst p =? fst q) && negb (fst p =? snd q) && negb (snd p =? fst q) && negb (snd p =? snd q))
      | None => negb (negb (fst p =? fst q) && negb (fst p =? snd q) && negb (snd p =? fst q) && negb (snd p =? snd q))
      end) (zrange 0 10)) (zrange 0 10) = true) by (vm_compute; reflexivity).
    rewrite forallb_forall in T. specialize (T x Hx). cbv beta in T. rewrite forallb_forall in T. specialize (T y Hy). cbv beta zeta in T.
    rewrite <- D. destruct (weight petersen_graph x y) as [w|].
    + apply andb_true_iff in T as (T1 & T2). apply Z.eqb_eq in T1. subst w. split; [reflexivity|]. intros N. contradiction (N T2).
    + apply negb_true_iff in T. split; [intros H; rewrite H in T; discriminate|reflexivity].
Qed.
Print Assumptions C74_petersen_graph.

Example C74_ex : complete_graph 3 = [(1, [(0, 1); (2, 1)]); (0, [(1, 1); (2, 1)]); (2, [(0, 1); (1, 1)])] /\
  grid_graph 2 = [(0, [(1, 1); (2, 1)]); (1, [(0, 1); (3, 1)]); (2, [(0, 1); (3, 1)]); (3, [(1, 1); (2, 1)])] /\
  num_edges petersen_graph = 15 /\ num_edges (random_graph (fun u v => Z.even (u + v)) 4) = 2 /\ num_edges (coprime_pairs_graph 5) = 9.
Proof. repeat split; vm_compute; reflexivity. Qed.
