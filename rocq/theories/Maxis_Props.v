(** * C89: colouring by removing independent sets ([maxis]) *)
From Coq Require Import ZArith List Lia Bool Permutation.
From Verif Require Import Base Py Dict Lists Lists2 Graph_Model Graph_Spec Graph_Proofs Graph_Proofs2 Trav_Model Color_Model Color_Spec Color_Proofs Color_Props
  MaxCliq_Model Kor_Model Kor_Props Indep_Model Indep_Spec Indep_Props Maxis_Spec Maxis_Model Maxis_Proofs.
Import ListNotations.
Open Scope Z_scope.

(** Whatever random.choice returns and whatever the orders of the sets are: the loop removes independent sets until
    at most [color_limit] vertices are left; if each of these has a neighbour among them, or none is left, the result is
    a proper colouring, which uses the least number of colours on the vertices that were left.  With [use_greedy] or if
    no independent set has more than [mis_limit] vertices. *)
Theorem C89_maxis : forall color_limit mis_limit use_greedy pick ord ord0 kord g classes,
  0 <= color_limit -> (forall d s l, l <> [] -> In (pick d s l) l) -> (forall d l, Permutation (ord d l) l) ->
  (forall l, Permutation (ord0 l) l) -> (forall st l, Permutation (kord st l) l) ->
  undirected g -> loop_free g ->
  use_greedy = true \/ (forall c, independent_set g c -> Z.of_nat (length c) <= mis_limit) ->
  exists L h, left_over g L h /\ Z.of_nat (length h) <= color_limit /\
    ((forall v, vertex h v -> exists u, edge h v u) ->
     exists k c, maxis color_limit mis_limit use_greedy pick ord ord0 kord g classes = Ret (k, c) /\ good_colouring g 0 k classes c /\
       (h = [] -> k = Z.of_nat (length L)) /\ (h <> [] -> chromatic_number h (k - Z.of_nat (length L))) /\ forall k', chromatic_number g k' -> k' <= k).
Proof.
  intros color_limit mis_limit use_greedy pick ord ord0 kord g classes Hc Hp Ho Ho0 Hk Hg Hl Hm.
  destruct (loop_ok color_limit mis_limit use_greedy pick ord Hc Hp Ho g Hm (length g) [] g (left_over_nil g Hg Hl) (le_n _)) as (L & h & E & H & B & _).
  exists L, h. split; [exact H|]. split; [exact B|]. intros Hi. unfold maxis, maxis_upto. rewrite E. cbn [bind].
  assert (UB : forall k L', proper_classes g k L' -> forall k', chromatic_number g k' -> k' <= k) by (intros k L' PC k' (_ & Q); apply Q, (classes_colourable g k L' Hg PC)).
  assert (D : h = [] \/ h <> []) by (destruct h; [left; reflexivity|right; discriminate]). destruct D as [->|Ne].
  - cbn [length Z.of_nat Z.eqb]. pose proof (empty_classes g L H) as PC. destruct (class_result g _ L classes Hg PC) as (c & E' & G). exists (Z.of_nat (length L)), c.
    split; [exact E'|]. split; [exact G|]. split; [reflexivity|]. split; [congruence|apply (UB _ L PC)].
  - destruct (Z.eqb_spec (Z.of_nat (length h)) 0) as [Z0|_]; [destruct h; [congruence|cbn in Z0; lia]|].
    destruct (C84_exact_coloring h ord0 kord true (lo_und _ _ _ H) (lo_free _ _ _ H) Ne Hi Ho0 Hk) as (k & c & E' & Ch & G). rewrite E'. cbn [bind].
    destruct c as [L'|cm]; [|destruct G as (G & _); discriminate]. destruct G as (_ & G). pose proof (join_classes g L h k L' H G) as PC.
    destruct (class_result g _ _ classes Hg PC) as (c & E'' & G'). eexists _, c. split; [exact E''|]. split; [exact G'|]. split; [congruence|]. split; [|apply (UB _ _ PC)].
    intros _. replace (Z.of_nat (length L) + k - Z.of_nat (length L)) with k by lia. exact Ch.
Qed.

(** With [color_limit = 0] every graph is coloured. *)
Theorem C89_maxis_no_limit : forall mis_limit use_greedy pick ord ord0 kord g classes,
  (forall d s l, l <> [] -> In (pick d s l) l) -> (forall d l, Permutation (ord d l) l) ->
  (forall l, Permutation (ord0 l) l) -> (forall st l, Permutation (kord st l) l) ->
  undirected g -> loop_free g ->
  use_greedy = true \/ (forall c, independent_set g c -> Z.of_nat (length c) <= mis_limit) ->
  exists k c, maxis 0 mis_limit use_greedy pick ord ord0 kord g classes = Ret (k, c) /\ good_colouring g 0 k classes c /\
    forall k', chromatic_number g k' -> k' <= k.
Proof.
  intros mis_limit use_greedy pick ord ord0 kord g classes Hp Ho Ho0 Hk Hg Hl Hm.
  destruct (C89_maxis 0 mis_limit use_greedy pick ord ord0 kord g classes (Z.le_refl 0) Hp Ho Ho0 Hk Hg Hl Hm) as (L & h & H & B & R).
  assert (h = []) as -> by (destruct h; [reflexivity|cbn in B; lia]). destruct R as (k & c & E & G & _ & _ & U); [intros v []|]. exists k, c. auto.
Qed.

(** At most [color_limit] vertices, none of them isolated: the answer is exact. *)
Theorem C89_maxis_small : forall color_limit mis_limit use_greedy pick ord ord0 kord g classes,
  (forall l, Permutation (ord0 l) l) -> (forall st l, Permutation (kord st l) l) ->
  undirected g -> loop_free g -> g <> [] -> (forall v, vertex g v -> exists u, edge g v u) -> Z.of_nat (length g) <= color_limit ->
  exists k c, maxis color_limit mis_limit use_greedy pick ord ord0 kord g classes = Ret (k, c) /\ good_colouring g 0 k classes c /\ chromatic_number g k.
Proof.
  intros color_limit mis_limit use_greedy pick ord ord0 kord g classes Ho0 Hk Hg Hl Ne Hi B. unfold maxis, maxis_upto.
  assert (E : forall fuel, maxis_loop color_limit mis_limit use_greedy pick ord fuel g (Z.of_nat (length g)) [] = Ret (g, Z.of_nat (length g), [])).
  { intros [|f]; cbn [maxis_loop]; (destruct (Z.ltb_spec color_limit (Z.of_nat (length g))); [lia|reflexivity]). }
  rewrite E. cbn [bind]. destruct (Z.eqb_spec (Z.of_nat (length g)) 0) as [Z0|_]; [destruct g; [congruence|cbn in Z0; lia]|].
  destruct (C84_exact_coloring g ord0 kord true Hg Hl Ne Hi Ho0 Hk) as (k & c & E' & Ch & G). rewrite E'. cbn [bind].
  destruct c as [L'|cm]; [|destruct G as (G & _); discriminate]. destruct G as (_ & G). cbn [length Z.of_nat app]. rewrite Z.add_0_l.
  destruct (class_result g k L' classes Hg G) as (c & E'' & G'). exists k, c. auto.
Qed.

(** The graph without vertices. *)
Theorem C89_maxis_empty : forall color_limit mis_limit use_greedy pick ord ord0 kord, 0 <= color_limit ->
  maxis color_limit mis_limit use_greedy pick ord ord0 kord [] true = Ret (0, Classes []).
Proof.
  intros color_limit mis_limit use_greedy pick ord ord0 kord Hc. unfold maxis, maxis_upto. cbn [length maxis_loop Z.of_nat].
  destruct (Z.ltb_spec color_limit 0); [lia|]. reflexivity.
Qed.

(** Without edges and with more vertices than both limits the default search finds only the empty set, and the loop never ends. *)
Theorem C89_maxis_edgeless_refuted : forall fuel color_limit mis_limit pick ord ord0 kord g classes, (forall d l, Permutation (ord d l) l) ->
  undirected g -> (forall u v, ~ edge g u v) -> color_limit < Z.of_nat (length g) -> mis_limit < Z.of_nat (length g) ->
  maxis_upto color_limit mis_limit false pick ord ord0 kord fuel g classes = Diverge.
Proof.
  intros fuel color_limit mis_limit pick ord ord0 kord g classes Ho Hg NE Hc Hm.
  assert (Hl : loop_free g) by (intros u; destruct (weight g u u) as [w|] eqn:E; [exfalso; apply (NE u u); exists w; exact E|reflexivity]).
  assert (D : forall L, maxis_loop color_limit mis_limit false pick ord fuel g (Z.of_nat (length g)) L = Diverge); [|unfold maxis_upto; rewrite D; reflexivity].
  induction fuel as [|f IH]; intros L; cbn [maxis_loop]; (destruct (Z.ltb_spec color_limit (Z.of_nat (length g))); [|lia]); [reflexivity|].
  unfold maxis_set. destruct (Z.ltb_spec mis_limit (Z.of_nat (length g))); [|lia]. destruct (C68_culberson (ord L) g (Ho L) Hg Hl) as (c & E & _ & Q & _). rewrite (Q NE) in E. rewrite E.
  cbn [bind length Z.of_nat]. rewrite Z.sub_0_r. apply IH.
Qed.

(** With two or more vertices, at most [color_limit] of them, and no edge the exact colouring fails. *)
Theorem C89_maxis_edgeless_small_refuted : forall color_limit mis_limit use_greedy pick ord ord0 kord g classes,
  (forall l, Permutation (ord0 l) l) -> (forall st l, Permutation (kord st l) l) ->
  undirected g -> (forall u v, ~ edge g u v) -> (2 <= length g)%nat -> Z.of_nat (length g) <= color_limit ->
  maxis color_limit mis_limit use_greedy pick ord ord0 kord g classes = Raise UnboundLocalError.
Proof.
  intros color_limit mis_limit use_greedy pick ord ord0 kord g classes Ho0 Hk Hg NE L2 B. unfold maxis, maxis_upto.
  assert (E : forall fuel, maxis_loop color_limit mis_limit use_greedy pick ord fuel g (Z.of_nat (length g)) [] = Ret (g, Z.of_nat (length g), [])).
  { intros [|f]; cbn [maxis_loop]; (destruct (Z.ltb_spec color_limit (Z.of_nat (length g))); [lia|reflexivity]). }
  rewrite E. cbn [bind]. destruct (Z.eqb_spec (Z.of_nat (length g)) 0); [lia|]. unfold exact_coloring, korman. rewrite C84_korman_edgeless_refuted by assumption. reflexivity.
Qed.

Print Assumptions C89_maxis.
Print Assumptions C89_maxis_no_limit.
Print Assumptions C89_maxis_small.
Print Assumptions C89_maxis_empty.
Print Assumptions C89_maxis_edgeless_refuted.
Print Assumptions C89_maxis_edgeless_small_refuted.

(** ** The hypotheses can be met *)

(** A cycle of five vertices, of which [color_limit] = 3 removes one pair, or of which nothing is removed. *)
Definition run5 color_limit use_greedy := maxis color_limit 100 use_greedy (fun _ _ l => hd 0 l) (fun _ l => l) (fun l => l) (fun _ l => l) five.
Example C89_five : run5 58 false true = Ret (3, Classes [[0; 3]; [4; 2]; [1]]).
Proof. vm_compute. reflexivity. Qed.
Example C89_five_no_limit : run5 0 true false = Ret (3, ColorMap [(0, 0); (2, 0); (3, 1); (1, 1); (4, 2)]).
Proof. vm_compute. reflexivity. Qed.
Example C89_five_hyps : undirected five /\ loop_free five /\ (forall v, vertex five v -> exists u, edge five v u).
Proof.
  split; [apply (history_undirected [OpAddEdges [(0, 1, 1); (1, 2, 1); (2, 3, 1); (3, 4, 1); (4, 0, 1)]])|]. split.
  - intros u. unfold weight, five. cbn -[Z.eqb]. repeat match goal with |- context [Z.eqb ?a u] => destruct (Z.eqb_spec a u); [subst; reflexivity|] end. reflexivity.
  - intros v [<-|[<-|[<-|[<-|[<-|[]]]]]]; [exists 1|exists 2|exists 3|exists 4|exists 0]; eexists; reflexivity.
Qed.
(** Two vertices without an edge, with the default limits: an exception. *)
Example C89_two : maxis 58 100 false (fun _ _ l => hd 0 l) (fun _ l => l) (fun l => l) (fun _ l => l) [(0, []); (1, [])] true = Raise UnboundLocalError.
Proof. vm_compute. reflexivity. Qed.
