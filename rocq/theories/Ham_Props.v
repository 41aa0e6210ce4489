(** * Hamiltonian paths: the properties *)
From Coq Require Import ZArith List Lia Bool Permutation.
From Verif Require Import Base Py Dict Lists Lists2 Count Graph_Model Graph_Spec Graph_Proofs Trav_Model Trav_Proofs Cliq_Model Cliq_Proofs Ham_Model Ham_Spec Ham_Proofs Ham_Proofs2 Ham_Proofs3.
Import ListNotations.
Open Scope Z_scope.

(** [ord used l] is the order in which a set with the elements l is iterated after the vertices
    [used] were visited.  The list holds the paths that are yielded. *)
Theorem C69_hamiltonian_paths g ord : undirected g -> g <> [] -> (forall used l, Permutation (ord used l) l) ->
  exists L, ham_paths g ord false = Ret L /\ NoDup L /\ forall p, In p L <-> hamiltonian_path g p.
Proof. intros Hg Ne Ho. apply ham_paths_ok; assumption. Qed.

Theorem C69_hamiltonian_paths_con g ord : undirected g -> g <> [] -> (forall used l, Permutation (ord used l) l) ->
  exists L, ham_paths g ord true = Ret L /\ NoDup L /\ forall p, In p L <-> hamiltonian_path g p.
Proof. intros Hg Ne Ho. apply ham_paths_ok; assumption. Qed.

Theorem C69_is_connected2 g ord allowed : undirected g -> (forall l, Permutation (ord l) l) -> NoDup allowed ->
  exists b, is_connected2 g ord allowed = Ret b /\ (b = true <-> connected_in g allowed).
Proof. intros Hg Ho N. apply is_connected2_ok; assumption. Qed.

Theorem C69_number_of_hamiltonian_paths g ord : undirected g -> g <> [] -> (forall l, Permutation (ord l) l) ->
  exists v, number_of_hamiltonian_paths g ord = Ret v /\ number_of (hamiltonian_path g) v.
Proof. intros Hg Ne Ho. apply number_ok; assumption. Qed.

(** [vs] is the list of the vertices as random.shuffle leaves it. *)
Theorem C69_bits g vs : undirected g -> g <> [] -> Permutation vs (map fst g) ->
  exists v, ham_bits g false vs = Ret v /\ number_of (hamiltonian_path g) v.
Proof. apply ham_bits_ok. Qed.

Theorem C69_bits_con g vs : undirected g -> g <> [] -> Permutation vs (map fst g) ->
  exists v, ham_bits g true vs = Ret v /\ number_of (hamiltonian_path g) v.
Proof. apply ham_bits_ok. Qed.

(** number_of_hamiltonian_paths5, for graphs with at least two vertices. *)
Theorem C69_inclusion_exclusion g vs : undirected g -> Permutation vs (map fst g) -> (2 <= length vs)%nat ->
  number_of (hamiltonian_path g) (ham5 g vs).
Proof. intros Hg P L. apply ham5_ok; assumption. Qed.

(** A single vertex is a path, which number_of_hamiltonian_paths5 counts only when it has a loop. *)
Theorem C69_inclusion_exclusion_one_refuted : forall g v, undirected g -> map fst g = [v] ->
  number_of (hamiltonian_path g) 1 /\ (~ edge g v v -> ham5 g [v] = 0) /\ (edge g v v -> ham5 g [v] = 1).
Proof.
  intros g v Hg Ev. split; [|].
  - apply (number_of_one _ [v]). intros p. split.
    + intros (P & _). rewrite Ev in P. apply Permutation_sym, Permutation_length_1_inv in P. exact P.
    + intros ->. split; [rewrite Ev; reflexivity|apply successive_one].
  - assert (M : mem v (inter (nbr g v) [v]) = true <-> edge g v v).
    { rewrite mem_In, inter_In, (nbr_In g). cbn. tauto. }
    assert (E : ham5 g [v] = if mem v (inter (nbr g v) [v]) then 1 else 0).
    { unfold ham5. cbn -[mem inter]. rewrite Z.eqb_refl. destruct (mem v (inter (nbr g v) [v])); reflexivity. }
    rewrite E. destruct (mem v (inter (nbr g v) [v])); split; intros H; try reflexivity; [exfalso; apply H, M; reflexivity|].
    apply M in H. discriminate.
Qed.

Example C69_one_example : let g := fold_left apply_op [OpAddVertex 5] empty_graph in undirected g /\ map fst g = [5] /\ ~ edge g 5 5 /\ ham5 g [5] = 0.
Proof. split; [apply history_undirected|]. split; [reflexivity|]. split; [intros (w & H); discriminate|reflexivity]. Qed.

(** On the path 1 - 2 - 3 number_of_hamiltonian_paths5_con returns 4; there are two. *)
Definition h_path : graph := fold_left apply_op [OpAddEdges [(1, 2, 1); (2, 3, 1)]] empty_graph.
Theorem C69_inclusion_exclusion_con_refuted : undirected h_path /\ ham5_con h_path (fun l => l) = Ret 4 /\ number_of (hamiltonian_path h_path) 2.
Proof.
  split; [apply history_undirected|]. split; [vm_compute; reflexivity|].
  replace 2 with (ham5 h_path [1; 2; 3]) by (vm_compute; reflexivity). apply C69_inclusion_exclusion; [apply history_undirected|reflexivity|cbn; lia].
Qed.

(** It is right on complete graphs, where no set of vertices is passed over. *)
Lemma cextend_all g ord : (forall partial, is_connected2 g ord (diff (dkeys g) partial) = Ret true) -> forall fuel rest partial, (length rest < fuel)%nat ->
  exists l, cextend g ord fuel partial rest = Ret l /\ forall F, zsum (map F l) = zsum (map (fun A => F (partial ++ A)) (sublists rest)).
Proof.
  intros Hc. induction fuel as [|f IH]; intros rest partial L; [lia|]. cbn [cextend]. rewrite Hc. cbn [bind].
  set (loop := fix loop (rest : list Z) : outcome (list (list Z)) := match rest with [] => Ret [] | v :: rest' => do l <- cextend g ord f (partial ++ [v]) rest'; do m <- loop rest'; Ret (l ++ m) end).
  assert (Q : forall rest, (length rest <= f)%nat -> exists l, loop rest = Ret l /\ forall F, F partial + zsum (map F l) = zsum (map (fun A => F (partial ++ A)) (sublists rest))).
  { clear L rest. induction rest as [|v rest IHr]; intros L.
    - exists []. split; [reflexivity|]. intros F. cbn. rewrite app_nil_r. lia.
    - cbn [length] in L. destruct (IH rest (partial ++ [v]) ltac:(lia)) as (l & El & Hl). destruct (IHr ltac:(lia)) as (m & Em & Hm). exists (l ++ m). split.
      + cbn [loop]. fold loop. rewrite El. cbn [bind]. rewrite Em. reflexivity.
      + intros F. cbn [sublists]. rewrite !map_app, !zsum_app, zsum_map_map, <- Hm, Hl.
        replace (zsum (map (fun x => F (partial ++ v :: x)) (sublists rest))) with (zsum (map (fun A => F ((partial ++ [v]) ++ A)) (sublists rest))); [lia|].
        f_equal. apply map_ext. intros A. rewrite <- app_assoc. reflexivity. }
  destruct (Q rest ltac:(lia)) as (l & El & Hl). fold loop. rewrite El. cbn [bind]. exists (partial :: l). split; [reflexivity|]. intros F. rewrite <- Hl. reflexivity.
Qed.
Theorem C69_inclusion_exclusion_con_complete g ord : undirected g -> (2 <= length g)%nat -> (forall l, Permutation (ord l) l) ->
  (forall u v, vertex g u -> vertex g v -> u <> v -> edge g u v) ->
  exists v, ham5_con g ord = Ret v /\ number_of (hamiltonian_path g) v.
Proof.
  intros Hg L Ho Hc. unfold ham5_con.
  assert (Pv : Permutation (vertices g) (map fst g)) by (apply zsort_perm).
  assert (C : forall partial, is_connected2 g ord (diff (dkeys g) partial) = Ret true).
  { intros partial. assert (Sub : forall x, In x (diff (dkeys g) partial) -> vertex g x) by (intros x I; unfold diff in I; apply filter_In in I; apply I).
    destruct (C69_is_connected2 g ord (diff (dkeys g) partial) Hg Ho) as (b & E & H); [apply NoDup_filter, Hg|]. rewrite E. f_equal. apply H.
    intros u v Iu Iv. destruct (Z.eq_dec u v) as [->|D]; [apply reach_here; exact Iv|]. apply (reach_step _ _ _ u); [apply reach_here; exact Iu| |exact Iv]. apply Hc; auto. }
  destruct (cextend_all g ord C (S (length g)) (vertices g) []) as (l & E & H); [rewrite (Permutation_length Pv), map_length; lia|].
  rewrite E. cbn [bind]. eexists. split; [reflexivity|]. rewrite H. cbn [app].
  replace (zsum (map (fun A => walk_term g (Z.of_nat (length g)) A) (sublists (vertices g)))) with (ham5 g (vertices g)).
  - apply C69_inclusion_exclusion; [exact Hg|exact Pv|rewrite (Permutation_length Pv), map_length; exact L].
  - unfold ham5. rewrite (sum_by_size (vertices g) (walk_term g (Z.of_nat (length (vertices g)))) (length (vertices g))) by lia. rewrite (Permutation_length Pv), map_length. reflexivity.
Qed.
Print Assumptions C69_inclusion_exclusion_con_complete.
Example C69_con_example : ham5_con (complete_graph 4) (fun l => l) = Ret 24.
Proof. vm_compute. reflexivity. Qed.

(** The empty graph: nothing is yielded, and the count is 0. *)
Theorem C69_empty ord ord' con : (forall l, Permutation (ord l) l) -> (forall u l, Permutation (ord' u l) l) ->
  ham_paths [] ord' con = Ret [] /\ number_of_hamiltonian_paths [] ord = Ret 0 /\ ham_bits [] con [] = Ret 0.
Proof.
  intros Ho Ho'. unfold ham_paths, number_of_hamiltonian_paths. cbn [dkeys map].
  rewrite (Permutation_nil (Permutation_sym (Ho' [] []))), (Permutation_nil (Permutation_sym (Ho []))). repeat split; reflexivity.
Qed.

(** A square 1 - 2 - 3 - 4 - 1 with the diagonal 1 - 3. *)
Definition h_ex : graph := fold_left apply_op [OpAddEdges [(1, 2, 1); (2, 3, 1); (3, 4, 1); (4, 1, 1); (1, 3, 1)]] empty_graph.
Example C69_example : undirected h_ex /\ h_ex <> [] /\ number_of_hamiltonian_paths h_ex (fun l => rev l) = Ret 12 /\
  ham_bits h_ex false [2; 4; 1; 3] = Ret 12 /\ ham_bits h_ex true [2; 4; 1; 3] = Ret 12 /\ ham5 h_ex [3; 1; 2; 4] = 12 /\
  ham_paths h_path (fun _ l => l) true = Ret [[1; 2; 3]; [3; 2; 1]].
Proof. split; [apply history_undirected|]. split; [discriminate|]. vm_compute. auto 10. Qed.

Print Assumptions C69_hamiltonian_paths.
Print Assumptions C69_hamiltonian_paths_con.
Print Assumptions C69_is_connected2.
Print Assumptions C69_number_of_hamiltonian_paths.
Print Assumptions C69_bits.
Print Assumptions C69_bits_con.
Print Assumptions C69_inclusion_exclusion.
