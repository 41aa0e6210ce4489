(** * Colourings (C66, C67) *)
From Coq Require Import ZArith List Lia Bool Permutation.
From Verif Require Import Base Py Dict Lists Lists2 Graph_Model Graph_Spec Graph_Proofs Graph_Proofs2 Trav_Model Trav_Proofs Color_Model Color_Spec Color_Proofs Color_Proofs2 Color_Spec2 Color_Proofs3.
Import ListNotations.
Open Scope Z_scope.

Lemma degree_of_unique g v d : undirected g -> vertex g v -> degree_of g v d <-> d = degree0 g v.
Proof.
  intros Hg Hv. destruct (adj_row g Hg v Hv) as (a & Ea & Na & Ha). unfold degree0. rewrite Ea. split.
  - intros (N & H1 & H2 & ->). f_equal. rewrite <- (map_length fst a). apply Permutation_length, NoDup_same_perm; [exact H1|exact Na|]. intros x. rewrite H2, <- Ha. reflexivity.
  - intros ->. exists (dkeys a). split; [exact Na|]. split; [exact Ha|]. unfold dkeys. rewrite map_length. reflexivity.
Qed.

(** What the two forms of a result are. *)
Definition good_colouring g (lo k : Z) (classes : bool) (c : colouring) : Prop :=
  match c with
  | Classes L => classes = true /\ proper_classes g k L
  | ColorMap cm => classes = false /\ proper_map g lo k cm
  end.

(** ** greedy_sequential *)

(** For every order of the vertices (the default one included), any number of passes. *)
Theorem C66_greedy_sequential g vs passes classes : undirected g -> loop_free g -> g <> [] -> 1 <= passes ->
  (forall l, vs = Some l -> Permutation l (map fst g)) ->
  exists k c, greedy_sequential g vs passes classes = Ret (k, c) /\ good_colouring g 0 k classes c /\
    forall D, (forall v d, vertex g v -> degree_of g v d -> d <= D) -> k <= D + 1.
Proof.
  intros Hg Hl Ne Hp Hvs. unfold greedy_sequential. set (l := match vs with Some l => l | None => rev (vertices_by_degree g) end).
  assert (Pl : Permutation l (dkeys g)).
  { unfold l. destruct vs as [l0|]; [apply (Hvs l0 eq_refl)|]. rewrite <- Permutation_rev. apply sort_by_perm. }
  assert (DEG : forall k : Z, (forall D, (forall x, vertex g x -> degree0 g x <= D) -> k <= D + 1) -> forall D, (forall v d, vertex g v -> degree_of g v d -> d <= D) -> k <= D + 1).
  { intros k HD D H. apply HD. intros x Hx. apply (H x _ Hx). apply degree_of_unique; [exact Hg|exact Hx|reflexivity]. }
  assert (ONCE : forall l', Permutation l' (dkeys g) -> exists k c, greedy_once g l' 1 classes = Ret (k, c) /\ good_colouring g 0 k classes c /\
    forall D, (forall v d, vertex g v -> degree_of g v d -> d <= D) -> k <= D + 1).
  { intros l' Pl'. destruct (greedy_map_total g Hg Hl l' Pl' Ne) as (cm & k & E & PM & K0 & HD & _). unfold greedy_once. rewrite E. cbn [bind]. change (1 =? 1) with true. rewrite andb_true_r.
    destruct classes; eexists _, _; (split; [reflexivity|]); (split; [|apply DEG, HD]); (split; [reflexivity|]); [apply (classes_ok g Hg 0 k cm); [lia|exact PM]|exact PM]. }
  destruct (Z.leb_spec passes 1) as [L|L].
  - replace passes with 1 by lia. apply ONCE, Pl.
  - destruct (greedy_map_total g Hg Hl l Pl Ne) as (cm & k & E & PM & K0 & _ & _). rewrite E. cbn [bind]. apply ONCE. apply (reclassed g Hg 0 k cm K0 PM).
Qed.

(** A second pass never needs more colours. *)
Theorem C66_second_pass g vs passes classes classes' : undirected g -> loop_free g -> g <> [] -> 1 <= passes ->
  (forall l, vs = Some l -> Permutation l (map fst g)) ->
  exists k c k' c', greedy_sequential g vs 1 classes = Ret (k, c) /\ greedy_sequential g vs passes classes' = Ret (k', c') /\ k' <= k.
Proof.
  intros Hg Hl Ne Hp Hvs. unfold greedy_sequential. set (l := match vs with Some l => l | None => rev (vertices_by_degree g) end).
  assert (Pl : Permutation l (dkeys g)).
  { unfold l. destruct vs as [l0|]; [apply (Hvs l0 eq_refl)|]. rewrite <- Permutation_rev. apply sort_by_perm. }
  destruct (greedy_map_total g Hg Hl l Pl Ne) as (cm & k & E & PM & K0 & _ & _). change (1 <=? 1) with true. cbv iota.
  assert (E1 : exists c, greedy_once g l 1 classes = Ret (k, c)) by (unfold greedy_once; rewrite E; cbn [bind]; destruct (classes && (1 =? 1)); eauto).
  destruct E1 as (c & E1). exists k, c. destruct (Z.leb_spec passes 1) as [L|L].
  - assert (E2 : exists c', greedy_once g l passes classes' = Ret (k, c')) by (unfold greedy_once; rewrite E; cbn [bind]; destruct (classes' && (passes =? 1)); eauto).
    destruct E2 as (c' & E2). exists k, c'. split; [exact E1|]. split; [exact E2|lia].
  - rewrite E. cbn [bind]. destruct (reclassed g Hg 0 k cm K0 PM) as (Pr & h & H1 & H2 & H3).
    destruct (greedy_map_total g Hg Hl _ Pr Ne) as (cm' & k' & E' & _ & _ & _ & HK).
    assert (E2 : exists c', greedy_once g (concat (rev (color_classes 0 k cm))) 1 classes' = Ret (k', c')) by (unfold greedy_once; rewrite E'; cbn [bind]; destruct (classes' && (1 =? 1)); eauto).
    destruct E2 as (c' & E2). exists k', c'. split; [exact E1|]. split; [exact E2|]. exact (HK h k H1 H2 H3).
Qed.

(** The graph without vertices. *)
Theorem C66_greedy_sequential_empty passes classes : greedy_sequential [] None passes classes = Raise IndexError.
Proof. unfold greedy_sequential. destruct (passes <=? 1); reflexivity. Qed.

(** ** dsatur *)
Theorem C66_dsatur g ord classes : undirected g -> loop_free g -> g <> [] -> (forall l, Permutation (ord l) l) ->
  exists k c, dsatur g ord classes = Ret (k, c) /\ good_colouring g 0 k classes c /\
    forall D, (forall v d, vertex g v -> degree_of g v d -> d <= D) -> k <= D + 1.
Proof.
  intros Hg Hl Ne Ho. destruct (dsatur_ok g Hg Hl ord classes Ho Ne) as (cm & k & E & PM & K0 & HD). eexists _, _. split; [exact E|]. split.
  - destruct classes; (split; [reflexivity|]); [apply (classes_ok g Hg 0 k cm); [lia|exact PM]|exact PM].
  - intros D H. apply HD. intros x Hx. apply (H x _ Hx). apply degree_of_unique; [exact Hg|exact Hx|reflexivity].
Qed.

(** The colours are given by the rule of DSATUR; the dictionary lists the vertices in the order in which they were coloured. *)
Theorem C66_dsatur_rule g ord : undirected g -> loop_free g -> g <> [] -> (forall l, Permutation (ord l) l) ->
  exists k cm, dsatur g ord false = Ret (k, ColorMap cm) /\ dsatur_coloured g cm /\ (forall v, vertex g v <-> In v (map fst cm)).
Proof.
  intros Hg Hl Ne Ho. destruct (C66_dsatur g ord false Hg Hl Ne Ho) as (k & c & E & G & _).
  unfold dsatur in E |- *. destruct (maximum_degree_vertex_ok ord g Ho Ne) as (u & Em & Vu & Mu). rewrite Em in E |- *. cbn [bind] in E |- *.
  assert (Pv : forall x, In x (vertices g) <-> vertex g x) by (intros x; split; apply Permutation_in; [apply zsort_perm|symmetry; apply zsort_perm]).
  assert (Nv : NoDup (vertices g)) by (apply (Permutation_NoDup (Permutation_sym (zsort_perm (dkeys g)))), Hg).
  destruct (dsatur_loop_rule g Hg Hl (length (dkeys g)) (without (vertices g) u) [(u, 0)] 1) as (cm & k' & El & DC).
  - pose proof (without_len (vertices g) u Nv (proj2 (Pv u) Vu)) as L. pose proof (Permutation_length (zsort_perm (dkeys g))) as L'. unfold vertices in *. lia.
  - apply pcol_one; assumption.
  - lia.
  - apply without_nodup, Nv.
  - intros v. rewrite without_In, Pv. cbn. destruct (Z.eq_dec v u) as [->|]; [tauto|]. split; [tauto|]. intros [H|[H|[]]]; [tauto|congruence].
  - intros v Hv [<-|[]]. apply without_In in Hv. tauto.
  - constructor; [exact Vu|]. intros v a b Vv Da Db. apply degree_of_unique in Da; [|exact Hg|exact Vv]. apply degree_of_unique in Db; [|exact Hg|exact Vu]. subst. apply Mu, Vv.
  - rewrite El in E |- *. cbn [bind] in E |- *. injection E as <- <-. exists k', cm. split; [reflexivity|]. split; [exact DC|]. apply G.
Qed.

Theorem C66_dsatur_empty ord classes : (forall l, Permutation (ord l) l) -> dsatur [] ord classes = Raise ValueError.
Proof.
  intros Ho. unfold dsatur, maximum_degree_vertex. cbn [dkeys map]. specialize (Ho []). symmetry in Ho. apply Permutation_nil in Ho. rewrite Ho. reflexivity.
Qed.

(** ** branch_and_bound *)

(** The number is the chromatic number; the colouring is proper if the graph is not complete. *)
Theorem C67_branch_and_bound g classes : undirected g -> loop_free g -> g <> [] ->
  exists k c, branch_and_bound g classes = Ret (k, c) /\ chromatic_number g k /\ (~ complete g -> good_colouring g 1 k classes c).
Proof.
  intros Hg Hl Ne. destruct (branch_and_bound_ok g Hg Hl classes Ne) as (k & cm & E & CN & K0 & PM & _). eexists _, _. split; [exact E|]. split; [exact CN|].
  intros Nc. specialize (PM Nc). destruct classes; (split; [reflexivity|]); [apply (classes_ok g Hg 1 k cm); [lia|exact PM]|exact PM].
Qed.

(** On a complete graph no vertex is coloured: the classes are empty. *)
Theorem C67_branch_and_bound_complete_refuted g : undirected g -> loop_free g -> g <> [] -> complete g ->
  exists n, branch_and_bound g true = Ret (Z.of_nat n, Classes (repeat [] n)) /\ branch_and_bound g false = Ret (Z.of_nat n, ColorMap []) /\
    n = length (map fst g) /\ ~ proper_classes g (Z.of_nat n) (repeat [] n).
Proof.
  intros Hg Hl Ne Hc. destruct (branch_and_bound_ok g Hg Hl true Ne) as (k & cm & E & _ & K0 & _ & PM). destruct (PM Hc) as [-> ->].
  destruct (branch_and_bound_ok g Hg Hl false Ne) as (k' & cm' & E' & _ & _ & _ & PM'). destruct (PM' Hc) as [-> ->].
  exists (length (dkeys g)). split; [rewrite E|split; [exact E'|split; [reflexivity|]]].
  - unfold num_vertices. f_equal. f_equal. f_equal. unfold color_classes. cbn [filter map]. clear. generalize (length (dkeys g)) as n. intros n.
    replace n with (length (zrange 1 (1 + Z.of_nat n))) at 2 by (rewrite zrange_length; lia). generalize (zrange 1 (1 + Z.of_nat n)) as l. intros l.
    induction l as [|x l IH]; [reflexivity|]. cbn [map length repeat]. rewrite IH. reflexivity.
  - intros (_ & Pm & _). assert (Z0 : concat (repeat (@nil Z) (length (dkeys g))) = []) by (clear; induction (length (dkeys g)) as [|n IH]; [reflexivity|exact IH]).
    rewrite Z0 in Pm. apply Permutation_nil in Pm. destruct g; [congruence|discriminate].
Qed.

Theorem C67_branch_and_bound_empty classes : branch_and_bound [] classes = Raise ValueError.
Proof. reflexivity. Qed.

(** ** The hypotheses can be met *)
Definition k_ex : graph := add_edges empty_graph [(0, 1, 1); (1, 2, 1); (2, 3, 1); (3, 4, 1); (4, 0, 1); (0, 5, 1)].

Lemma k_ex_ok : undirected k_ex.
Proof. apply (history_undirected [OpAddEdges [(0, 1, 1); (1, 2, 1); (2, 3, 1); (3, 4, 1); (4, 0, 1); (0, 5, 1)]]). Qed.
Lemma k_ex_loop_free : loop_free k_ex.
Proof.
  intros u. destruct (Z.eq_dec u 0) as [->|]; [reflexivity|]. destruct (Z.eq_dec u 1) as [->|]; [reflexivity|]. destruct (Z.eq_dec u 2) as [->|]; [reflexivity|].
  destruct (Z.eq_dec u 3) as [->|]; [reflexivity|]. destruct (Z.eq_dec u 4) as [->|]; [reflexivity|]. destruct (Z.eq_dec u 5) as [->|]; [reflexivity|].
  unfold weight. replace (dget k_ex u) with (@None (list (Z * Z))); [reflexivity|]. symmetry. apply dget_None. vm_compute. intuition congruence.
Qed.
Example C66_ex : undirected k_ex /\ loop_free k_ex /\ k_ex <> [] /\ Permutation [0; 1; 2; 3; 4; 5] (map fst k_ex) /\
  greedy_sequential k_ex None 1 true = Ret (3, Classes [[0; 3]; [4; 2; 5]; [1]]) /\
  greedy_sequential k_ex (Some [0; 1; 2; 3; 4; 5]) 2 false = Ret (3, ColorMap [(4, 0); (1, 0); (3, 1); (5, 0); (0, 1); (2, 2)]) /\
  dsatur k_ex (fun l => rev l) true = Ret (3, Classes [[0; 3]; [4; 2; 5]; [1]]).
Proof.
  split; [apply k_ex_ok|]. split; [apply k_ex_loop_free|]. split; [discriminate|]. split; [apply Permutation_refl|]. vm_compute. auto.
Qed.
Example C67_ex : ~ complete k_ex /\ branch_and_bound k_ex true = Ret (3, Classes [[0; 3]; [4; 2; 5]; [1]]) /\
  complete (add_edges empty_graph [(0, 1, 1); (1, 2, 1); (2, 0, 1)]) /\
  branch_and_bound (add_edges empty_graph [(0, 1, 1); (1, 2, 1); (2, 0, 1)]) true = Ret (3, Classes [[]; []; []]).
Proof.
  split; [|split; [vm_compute; reflexivity|split; [|vm_compute; reflexivity]]].
  - intros H. destruct (H 0 2) as (w & E); [vm_compute; tauto|vm_compute; tauto|lia|]. discriminate E.
  - intros u v Hu Hv Nuv. vm_compute in Hu, Hv. destruct Hu as [<-|[<-|[<-|[]]]], Hv as [<-|[<-|[<-|[]]]]; try congruence; exists 1; reflexivity.
Qed.

Print Assumptions C66_greedy_sequential.
Print Assumptions C66_second_pass.
Print Assumptions C66_dsatur.
Print Assumptions C66_dsatur_rule.
Print Assumptions C67_branch_and_bound.
Print Assumptions C67_branch_and_bound_complete_refuted.
