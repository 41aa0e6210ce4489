(** * Exact colourings: [korman] and [exact_coloring] *)
From Coq Require Import ZArith List Lia Bool Permutation.
From Verif Require Import Base Py Dict Lists Lists2 Graph_Model Graph_Spec Graph_Proofs Graph_Proofs2 Trav_Model Color_Model Color_Spec Color_Proofs Color_Proofs2 Color_Props
  Cliq_Spec MaxCliq_Model MaxCliq_Proofs MaxCliq_Proofs2 MaxCliq_Props Kor_Model Kor_Proofs Kor_Proofs2 Kor_Proofs3.
Import ListNotations.
Open Scope Z_scope.

(** The search ends, the number is the chromatic number, and the colouring is proper with the colours
    1, ..., k all used, whatever the order of the sets, if every vertex has a neighbour. *)
Theorem C84_korman g ord0 ord classes : undirected g -> loop_free g -> g <> [] -> (forall v, vertex g v -> exists u, edge g v u) ->
  (forall l, Permutation (ord0 l) l) -> (forall st l, Permutation (ord st l) l) ->
  exists k c, korman g ord0 ord classes = Ret (k, c) /\ chromatic_number g k /\ good_colouring g 1 k classes c.
Proof.
  intros Hg Hl Ne Hi Ho0 Ho. apply korman_ok; try assumption. intros u a H E. subst a.
  destruct (Hi u) as (v & w & Ew). { apply in_map_iff. exists (u, []). split; [reflexivity|exact H]. }
  unfold weight in Ew. rewrite (dget_In g u [] (proj1 Hg) H) in Ew. discriminate.
Qed.

Theorem C84_exact_coloring g ord0 ord classes : undirected g -> loop_free g -> g <> [] -> (forall v, vertex g v -> exists u, edge g v u) ->
  (forall l, Permutation (ord0 l) l) -> (forall st l, Permutation (ord st l) l) ->
  exists k c, exact_coloring g ord0 ord classes = Ret (k, c) /\ chromatic_number g k /\ good_colouring g 1 k classes c.
Proof. apply C84_korman. Qed.

(** The empty graph. *)
Theorem C84_korman_empty fuel ord0 ord classes : (forall l, Permutation (ord0 l) l) -> korman_upto fuel [] ord0 ord classes = Raise ValueError.
Proof. intros Ho. unfold korman_upto. rewrite C66_dsatur_empty by exact Ho. reflexivity. Qed.

(** Without the guard the claim is false: with two or more vertices and no edge the next vertex is never bound. *)
Theorem C84_korman_edgeless_refuted fuel g ord0 ord classes : undirected g -> (2 <= length g)%nat -> (forall u v, ~ edge g u v) ->
  (forall l, Permutation (ord0 l) l) -> (forall st l, Permutation (ord st l) l) ->
  korman_upto fuel g ord0 ord classes = Raise UnboundLocalError.
Proof.
  intros Hg L2 NE Ho0 Ho.
  assert (Hl : loop_free g) by (intros u; destruct (weight g u u) as [w|] eqn:E; [exfalso; apply (NE u u); exists w; exact E|reflexivity]).
  assert (Ne : g <> []) by (intros ->; cbn in L2; lia).
  unfold korman_upto. destruct (dsatur_ok g Hg Hl ord0 false Ho0 Ne) as (cm & k0 & E & _). rewrite E. cbn [bind].
  destruct (C65_ostergard g Hg Hl Ne) as (size & C & Eo & (DC & VC & EC) & Es & _). rewrite Eo. cbn [bind].
  assert (Dv : NoDup (vertices g)) by (unfold vertices; eapply Permutation_NoDup; [symmetry; apply zsort_perm|apply Hg]).
  assert (Hv : forall u, In u (vertices g) <-> vertex g u) by (intros u; unfold vertices; apply zsort_In).
  assert (Lv : length (vertices g) = length g) by (unfold vertices; rewrite (Permutation_length (zsort_perm _)); apply map_length).
  destruct (init_ok g (vertices g) Hg Dv Hv C DC VC) as (color & order & unc & Ei & T & _ & _ & _ & _ & U). rewrite Ei.
  assert (LC : (length C <= 1)%nat).
  { destruct C as [|x [|y C]]; cbn; try lia. exfalso. apply (NE x y), EC; [left; reflexivity|right; left; reflexivity|]. intros ->. inversion DC as [|? ? N _]. apply N. left. reflexivity. }
  destruct (Z.eqb_spec size (Z.of_nat (length (vertices g)))); [lia|].
  assert (Ch : forall l, (forall u, In u l -> vertex g u) -> foldM (choose_step g color) l (0, 0, None) = Ret (0, 0, None)).
  { induction l as [|x l IH]; intros Vl; [reflexivity|]. cbn [foldM].
    assert (Vx := Vl x (or_introl eq_refl)). apply vertex_dget in Vx as (a & Ea).
    assert (a = []) as -> by (destruct a as [|(v, w) a]; [reflexivity|exfalso; apply (NE x v); exists w; unfold weight; rewrite Ea; cbn [dget]; rewrite Z.eqb_refl; reflexivity]).
    replace (choose_step g color (0, 0, None) x) with (@Ret (Z * Z * option Z) (0, 0, None)); [apply IH; intros u Hu; apply Vl; right; exact Hu|].
    unfold choose_step, around, g_adj, dgetM. rewrite Ea. reflexivity. }
  match goal with |- context [run _ _ ?s] => set (st0 := s) end.
  replace (run (k_loop g ord size) fuel st0) with (@Raise kst UnboundLocalError); [reflexivity|]. symmetry.
  apply (run_rule (k_loop g ord size) (fun s => s = st0) (fun _ => 0) (fun r => r = Raise UnboundLocalError)); [|reflexivity|apply Z.pow_pos_nonneg; lia].
  intros s ->. unfold k_loop, st0. cbn [k_idx]. rewrite Z.ltb_irrefl. unfold k_round, choose. cbn [k_next k_color k_unc k_s]. rewrite Ch; [reflexivity|].
  intros u Hu. apply (Permutation_in _ (Ho _ _)), U in Hu. apply Hu.
Qed.

(** And the search may never end: a path of three vertices and a fourth vertex without neighbours. *)
Definition lonely : graph := [(0, [(1, 1)]); (1, [(0, 1); (2, 1)]); (2, [(1, 1)]); (3, [])].

Theorem C84_korman_isolated_refuted fuel ord0 ord classes : (forall l, Permutation (ord0 l) l) -> (forall st l, Permutation (ord st l) l) ->
  undirected lonely /\ loop_free lonely /\ korman_upto fuel lonely ord0 ord classes = Diverge.
Proof.
  intros Ho0 Ho.
  assert (Hg : undirected lonely) by (apply (history_undirected [OpAddEdge 0 1 1; OpAddEdge 1 2 1; OpAddVertex 3])).
  split; [exact Hg|]. split.
  { intros u. destruct (Z.eq_dec u 0) as [->|]; [reflexivity|]. destruct (Z.eq_dec u 1) as [->|]; [reflexivity|]. destruct (Z.eq_dec u 2) as [->|]; [reflexivity|].
    unfold weight, lonely. cbn [dget]. repeat match goal with |- context [Z.eqb ?a u] => destruct (Z.eqb_spec a u); [subst; try congruence|] end; reflexivity. }
  destruct (maximum_degree_vertex_ok ord0 lonely Ho0 ltac:(discriminate)) as (u & Em & Vu & Mu).
  assert (u = 1) as ->.
  { specialize (Mu 1 ltac:(right; left; reflexivity)). destruct Vu as [<-|[<-|[<-|[<-|[]]]]]; [|reflexivity| |]; vm_compute in Mu; exfalso; apply Mu; reflexivity. }
  assert (Ed : dsatur lonely ord0 false = Ret (2, ColorMap [(1, 0); (2, 1); (0, 1); (3, 0)])) by (unfold dsatur; rewrite Em; vm_compute; reflexivity).
  unfold korman_upto. rewrite Ed. cbn [bind]. replace (ostergard lonely) with (@Ret (Z * list Z) (2, [2; 1])) by (vm_compute; reflexivity). cbn [bind].
  replace (vertices lonely) with [0; 1; 2; 3] by reflexivity. cbv -[run k_loop k_result lonely].
  set (S0 := KS 2 true None None [(0, 0); (1, 2); (2, 1); (3, 0)] [(0, 2); (1, 1)] [0; 3] 2 None).
  set (S1 := KS 3 true (Some 0) (Some 1) [(0, 1); (1, 2); (2, 1); (3, 0)] [(0, 2); (1, 1); (2, 0)] [3] 2 None).
  set (S2 := KS 2 false (Some 0) (Some 3) [(0, 0); (1, 2); (2, 1); (3, 0)] [(0, 2); (1, 1); (2, 0); (3, 0)] [3; 0] 2 None).
  set (S3 := KS 3 true (Some 0) (Some 1) [(0, 1); (1, 2); (2, 1); (3, 0)] [(0, 2); (1, 1); (2, 0); (3, 0)] [3] 2 None).
  rewrite (run_never (k_loop lonely ord 2) (fun s => In s [S0; S1; S2; S3])); [reflexivity| |left; reflexivity].
  assert (O3 : forall st, ord st [3] = [3]) by (intros st; apply Permutation_length_1_inv; symmetry; apply Ho).
  intros s [<-|[<-|[<-|[<-|[]]]]]; unfold k_loop, k_round; cbn [k_idx k_next k_s k_sc k_color k_order k_unc k_best k_found].
  - exists S1. split; [|right; left; reflexivity]. unfold S0. cbn [k_idx k_next k_s k_sc k_color k_order k_unc k_best k_found].
    match goal with |- context [ord ?st [0; 3]] => destruct (Permutation_length_2_inv (Permutation_sym (Ho st [0; 3]))) as [E|E]; rewrite E end; vm_compute; reflexivity.
  - exists S2. split; [|right; right; left; reflexivity]. unfold S1. cbn [k_idx k_next k_s k_sc k_color k_order k_unc k_best k_found]. rewrite O3. vm_compute. reflexivity.
  - exists S3. split; [|right; right; right; left; reflexivity]. vm_compute. reflexivity.
  - exists S2. split; [|right; right; left; reflexivity]. unfold S3. cbn [k_idx k_next k_s k_sc k_color k_order k_unc k_best k_found]. rewrite O3. vm_compute. reflexivity.
Qed.

Print Assumptions C84_korman.
Print Assumptions C84_exact_coloring.
Print Assumptions C84_korman_empty.
Print Assumptions C84_korman_edgeless_refuted.
Print Assumptions C84_korman_isolated_refuted.

(** ** The hypotheses can be met *)

(** A cycle of five vertices: a clique of two, but three colours. *)
Definition five : graph := [(0, [(1, 1); (4, 1)]); (1, [(0, 1); (2, 1)]); (2, [(1, 1); (3, 1)]); (3, [(2, 1); (4, 1)]); (4, [(3, 1); (0, 1)])].

Example C84_five ord0 ord : (forall l, Permutation (ord0 l) l) -> (forall st l, Permutation (ord st l) l) -> exists k c, korman five ord0 ord true = Ret (k, c) /\ chromatic_number five k.
Proof.
  intros Ho0 Ho. destruct (C84_korman five ord0 ord true) as (k & c & E & Ch & _); try assumption.
  - apply (history_undirected [OpAddEdges [(0, 1, 1); (1, 2, 1); (2, 3, 1); (3, 4, 1); (4, 0, 1)]]).
  - intros u. unfold weight, five. cbn -[Z.eqb]. repeat match goal with |- context [Z.eqb ?a u] => destruct (Z.eqb_spec a u); [subst; reflexivity|] end. reflexivity.
  - discriminate.
  - intros v [<-|[<-|[<-|[<-|[<-|[]]]]]]; [exists 1|exists 2|exists 3|exists 4|exists 0]; eexists; reflexivity.
  - exists k, c. split; assumption.
Qed.
Example C84_five_value : korman five (fun l => l) (fun _ l => l) true = Ret (3, Classes [[0; 3]; [4; 2]; [1]]).
Proof. vm_compute. reflexivity. Qed.
Example C84_edgeless : korman [(0, []); (1, [])] (fun l => l) (fun _ l => l) true = Raise UnboundLocalError.
Proof. vm_compute. reflexivity. Qed.
