(** * C46: the travelling salesman functions *)
From Coq Require Import QArith ZArith List Lia Permutation.
From Verif Require Import Base Loop TSP_Model TSP_Spec TSP_Proofs2 TSP_Proofs3 TSP_Proofs5 TSP_Proofs6 TSP_Spec2 TSP_Proofs7.
Import ListNotations.
Open Scope Z_scope.

(** depth_first returns a tour of least cost among all tours, and its cost.  The distances need not be symmetric nor
    nonnegative and the diagonal of the matrix may hold anything. *)
Theorem C46_depth_first n d D : 2 <= n -> distances n d D ->
  exists p, depth_first D n = Ret (Some (tour_cost d p), p) /\ tour n p /\ hd 1 p = 0 /\ forall q, tour n q -> tour_cost d p <= tour_cost d q.
Proof. intros Hn HD. apply depth_first_ok; assumption. Qed.

(** So does branch_and_bound: its pruning never loses the optimum. *)
Theorem C46_branch_and_bound n d D : 2 <= n -> distances n d D ->
  exists p, branch_and_bound D n = Ret (Some (tour_cost d p), p) /\ tour n p /\ hd 1 p = 0 /\ forall q, tour n q -> tour_cost d p <= tour_cost d q.
Proof. intros Hn HD. apply branch_and_bound_ok; assumption. Qed.

(** The two exact methods report the same cost. *)
Theorem C46_exact_methods_agree n d D : 2 <= n -> distances n d D ->
  exists c p q, depth_first D n = Ret (c, p) /\ branch_and_bound D n = Ret (c, q).
Proof.
  intros Hn HD. destruct (depth_first_ok n d D HD Hn) as (p & Ep & Tp & _ & Hp). destruct (branch_and_bound_ok n d D HD Hn) as (q & Eq & Tq & _ & Hq).
  exists (Some (tour_cost d p)), p, q. split; [exact Ep|]. rewrite Eq. specialize (Hp q Tq). specialize (Hq p Tp). replace (tour_cost d q) with (tour_cost d p) by lia. reflexivity.
Qed.

(** two_opt terminates for symmetric distances.  The result is a tour with its cost, no dearer than the identity tour, and
    reversing any one segment of it does not make it cheaper. *)
Theorem C46_two_opt n d D : 2 <= n -> distances n d D -> (forall i j, 0 <= i < n -> 0 <= j < n -> d i j = d j i) ->
  exists fuel0, forall fuel, (fuel0 <= fuel)%nat -> exists p, two_opt D fuel n = Ret (Some (tour_cost d p), p) /\ tour n p /\
    tour_cost d p <= tour_cost d (zrange 0 n) /\ forall A B C, p = A ++ B ++ C -> tour_cost d p <= tour_cost d (A ++ rev B ++ C).
Proof. intros Hn HD Hs. apply two_opt_ok; assumption. Qed.

Definition matrix_of (d : Z -> Z -> Z) (n : Z) : list (list (option Z)) := map (fun i => map (fun j => Some (d i j)) (zrange 0 n)) (zrange 0 n).
Definition asym (i j : Z) : Z := nth (Z.to_nat (4 * i + j)) [0; 5; 1; 9; 9; 0; 1; 1; 9; 90; 0; 5; 1; 9; 9; 0] 0.

(** Without symmetry the reported cost is wrong, even negative, and the tour can be dearer than the one it started from. *)
Theorem C46_two_opt_asymmetric_refuted : exists d n p c fuel, distances n d (matrix_of d n) /\
  (forall fuel', (fuel <= fuel')%nat -> two_opt (matrix_of d n) fuel' n = Ret (Some c, p)) /\ tour n p /\ (forall i j, 0 <= i < n -> 0 <= j < n -> 0 <= d i j) /\ c < 0 /\ tour_cost d (zrange 0 n) < tour_cost d p.
Proof.
  exists asym, 4, [0; 2; 3; 1], (-73), 3%nat.
  assert (H : forall i, 0 <= i < 4 -> i = 0 \/ i = 1 \/ i = 2 \/ i = 3) by (intros; lia).
  split. { split; [reflexivity|]. split.
    - intros i Hi. destruct (H i Hi) as [-> | [-> | [-> | ->]]]; reflexivity.
    - intros i j Hi Hj _. destruct (H i Hi) as [-> | [-> | [-> | ->]]]; destruct (H j Hj) as [-> | [-> | [-> | ->]]]; reflexivity. }
  split.
  { intros fuel' Hf. change (two_opt (matrix_of asym 4) fuel' 4) with (run (two_opt_step (matrix_of asym 4) 4) fuel' (Some 12, [0; 1; 2; 3])).
    rewrite (run_more _ 3); [vm_compute; reflexivity|vm_compute; discriminate|lia]. }
  split. { unfold tour. change (zrange 0 4) with [0; 1; 2; 3]. constructor. apply (Permutation_app_comm [2; 3] [1]). }
  split. { intros i j Hi Hj. destruct (H i Hi) as [-> | [-> | [-> | ->]]]; destruct (H j Hj) as [-> | [-> | [-> | ->]]]; vm_compute; discriminate. }
  vm_compute. split; reflexivity.
Qed.

(** It may also never end: with the distances below the tours 0123, 0321, 0231, 0132 follow each other for ever. *)
Definition asym4 (i j : Z) : Z := nth (Z.to_nat (4 * i + j)) [0; 5; 4; 2; 6; 0; 3; 9; 2; 9; 0; 9; 5; 3; 1; 0] 0.
Theorem C46_two_opt_asymmetric_endless_refuted : exists d n, distances n d (matrix_of d n) /\ (forall i j, 0 <= i < n -> 0 <= j < n -> 0 <= d i j) /\
  forall fuel, two_opt (matrix_of d n) fuel n = Diverge.
Proof.
  exists asym4, 4. assert (H : forall i, 0 <= i < 4 -> i = 0 \/ i = 1 \/ i = 2 \/ i = 3) by (intros; lia). split.
  { split; [reflexivity|]. split.
    - intros i Hi. destruct (H i Hi) as [-> | [-> | [-> | ->]]]; reflexivity.
    - intros i j Hi Hj _. destruct (H i Hi) as [-> | [-> | [-> | ->]]]; destruct (H j Hj) as [-> | [-> | [-> | ->]]]; reflexivity. }
  split. { intros i j Hi Hj. destruct (H i Hi) as [-> | [-> | [-> | ->]]]; destruct (H j Hj) as [-> | [-> | [-> | ->]]]; vm_compute; discriminate. }
  intros fuel. change (two_opt (matrix_of asym4 4) fuel 4) with (run (two_opt_step (matrix_of asym4 4) 4) fuel (Some 22, [0; 1; 2; 3])).
  apply (run_never _ (fun s => In (snd s) [[0; 1; 2; 3]; [0; 3; 2; 1]; [0; 2; 3; 1]; [0; 1; 3; 2]])); [|left; reflexivity].
  intros [c p] I. cbn [snd] in I. destruct I as [<-|[<-|[<-|[<-|[]]]]]; unfold two_opt_step;
    match goal with |- context [best_gain ?D 4 ?P] => let v := eval vm_compute in (best_gain D 4 P) in replace (best_gain D 4 P) with v by (vm_compute; reflexivity) end;
    cbn [wltb]; (eexists; split; [reflexivity|]); cbn; auto.
Qed.

(** Whatever the matrix, what it returns is a tour. *)
Theorem C46_two_opt_tour D fuel n c p : two_opt D fuel n = Ret (c, p) -> tour n p.
Proof.
  unfold two_opt. destruct (cost D (zrange 0 n) n) as [c0|e|]; cbn [bind]; try discriminate. intros E.
  assert (B : forall q g i j, best_gain D n q = Ret (g, i, j) -> 0 <= i <= j).
  { intros q g i j Eg. unfold best_gain in Eg.
    assert (K : forall l s s', (forall i, In i l -> 0 <= i) -> 0 <= snd (fst s) <= snd s ->
      foldM (fun s i => foldM (fun '(g0, i0, j0) j => do g <- gain D n q i j; Ret (if wltb g0 g then (g, i, j) else (g0, i0, j0))) (zrange (i + 2) n) s) l s = Ret s' -> 0 <= snd (fst s') <= snd s').
    { induction l as [|a l IH]; intros s s' Hl Hs Ef; [injection Ef as <-; exact Hs|]. cbn [foldM] in Ef.
      destruct (foldM _ (zrange (a + 2) n) s) as [s1|e|] eqn:E1; cbn [bind] in Ef; try discriminate. apply (IH s1 s'); [intros i0 H0; apply Hl; right; exact H0| |exact Ef].
      assert (Ha : 0 <= a) by (apply Hl; left; reflexivity). assert (Hj : forall j0, In j0 (zrange (a + 2) n) -> a <= j0) by (intros j0 H0; apply zrange_In in H0; lia).
      clear IH Ef Hl. revert s Hs E1 Hj. generalize (zrange (a + 2) n). induction l0 as [|b l0 IH]; intros s Hs E1 Hj; [injection E1 as <-; exact Hs|].
      cbn [foldM] in E1. destruct s as [[g0 i0] j0]. destruct (gain D n q a b) as [g1|e|]; cbn [bind] in E1; try discriminate.
      apply IH in E1; [exact E1| |intros j1 H1; apply Hj; right; exact H1]. specialize (Hj b (or_introl eq_refl)). destruct (wltb g0 g1); cbn [fst snd] in *; lia. }
    apply (K _ _ _ (fun i0 H0 => proj1 (proj1 (zrange_In _ _ _) H0))) in Eg; [exact Eg|cbn; lia]. }
  destruct (run_partial (two_opt_step D n) (fun s => tour n (snd s)) (fun r => forall c p, r = Ret (c, p) -> tour n p)) with (n := fuel) (s := (c0, zrange 0 n)) as [X|X].
  - intros [c1 q] T. cbn [snd] in T. unfold two_opt_step. destruct (best_gain D n q) as [[[g i] j]|e|] eqn:Eg; [|discriminate|discriminate].
    destruct (wltb (Some 0) g); [|intros c2 p2 X; injection X as <- <-; exact T]. cbn [snd]. apply B in Eg.
    destruct (reverse_slice_split q i j ltac:(lia) ltac:(lia)) as (A & M & Z & -> & ->). apply exchange_tour, T.
  - cbn [snd]. apply Permutation_refl.
  - congruence.
  - exact (X _ _ E).
Qed.

(** farthest_insertion returns a tour from city 0 with its cost. *)
Theorem C46_farthest_insertion n d D : 2 <= n -> distances n d D ->
  exists p, farthest_insertion D n = Ret (Some (tour_cost d p), p) /\ tour n p /\ hd 1 p = 0.
Proof.
  intros Hn HD. destruct (farthest_insertion_ok n d D HD ltac:(lia)) as (l & E & T). exists (0 :: l). rewrite E. split; [|split; [exact T|reflexivity]]. destruct l; [|reflexivity]. apply tour_facts in T as (_ & _ & L). cbn in L. lia.
Qed.

(** The tour is made by the rule of the name: each city inserted was farthest from the tour, and was inserted where the
    tour became least longer. *)
Theorem C46_farthest_insertion_rule n d D : 2 <= n -> distances n d D ->
  exists p, farthest_insertion D n = Ret (Some (tour_cost d p), p) /\ tour n p /\ farthest_first n d p.
Proof.
  intros Hn HD. destruct (farthest_insertion_rule n d D HD ltac:(lia)) as (l & E & T & FF). exists (0 :: l). rewrite E. split; [|split; [exact T|exact FF]].
  destruct l; [|reflexivity]. apply tour_facts in T as (_ & _ & L). cbn in L. lia.
Qed.

(** With the keyword [edges] it returns the directed edges of a tour, each once: leaving every city once, along a single cycle. *)
Theorem C46_insertion_edges n d D : 2 <= n -> distances n d D ->
  exists edges c p, insertion_edges D n = Ret (edges, c) /\ tour n p /\ hd 1 p = 0 /\ Permutation edges (combine p (tl p ++ [0])).
Proof.
  intros Hn HD. destruct (insertion_edges_ok n d D HD ltac:(lia)) as (edges & l & E & T & P). exists edges, (Some (csum d l)), (0 :: l). rewrite chain_combine in P. auto.
Qed.

(** steepest_ascent_two_opt on the matrix it derives from the points: a tour with its cost, no dearer than that of
    farthest_insertion and optimal among the reversals of one segment. *)
Theorem C46_steepest_ascent n d D : 2 <= n -> distances n d D -> (forall i j, 0 <= i < n -> 0 <= j < n -> d i j = d j i) ->
  exists c0 p0 fuel0, farthest_insertion D n = Ret (Some c0, p0) /\
  forall fuel, (fuel0 <= fuel)%nat -> exists p, steepest_ascent_two_opt D D fuel n = Ret (Some (tour_cost d p), p) /\ tour n p /\
    tour_cost d p <= c0 /\ forall A B C, p = A ++ B ++ C -> tour_cost d p <= tour_cost d (A ++ rev B ++ C).
Proof.
  intros Hn HD Hs. destruct (C46_farthest_insertion n d D Hn HD) as (p0 & E & T & _). destruct (improve_ok n d D HD Hs Hn p0 T) as (f0 & H). exists (tour_cost d p0), p0, f0. split; [exact E|]. intros fuel Hf. unfold steepest_ascent_two_opt. rewrite E. cbn [bind]. apply H, Hf.
Qed.

(** When a matrix is passed the starting tour is still priced with the euclidean distances, so the reported cost is wrong: the
    points (0,0), (3,0), (0,4) and a matrix in which every distance is 7. *)
Theorem C46_steepest_ascent_given_matrix_refuted : exists d0 d n c p,
  (forall i j, d i j = d j i) /\ (forall fuel, (1 <= fuel)%nat -> steepest_ascent_two_opt (matrix_of d0 n) (matrix_of d n) fuel n = Ret (Some c, p)) /\ tour n p /\ c <> tour_cost d p.
Proof.
  exists (fun i j => nth (Z.to_nat (3 * i + j)) [0; 3; 4; 3; 0; 5; 4; 5; 0] 0), (fun i j => if Z.eqb i j then 0 else 7), 3, 12, [0; 1; 2].
  split; [intros i j; rewrite Z.eqb_sym; reflexivity|]. split.
  { intros fuel Hf. unfold steepest_ascent_two_opt. match goal with |- context [farthest_insertion ?M 3] => change (farthest_insertion M 3) with (farthest_insertion (map (map Some) [[0; 3; 4]; [3; 0; 5]; [4; 5; 0]]) 3) end.
    replace (farthest_insertion (map (map Some) [[0; 3; 4]; [3; 0; 5]; [4; 5; 0]]) 3) with (Ret (Some 12, [0; 1; 2]) : outcome (option Z * list Z)) by (vm_compute; reflexivity). cbn [bind]. rewrite (run_more _ 1); [vm_compute; reflexivity|vm_compute; discriminate|exact Hf]. }
  split; [unfold tour; reflexivity|]. vm_compute. discriminate.
Qed.

(** Whatever is drawn, annealing ends and returns a tour with its cost, never dearer than the shuffled start, if random.random()
    never returns 0.0. *)
Theorem C46_annealing n d D shuffled rounds : 3 <= n -> distances n d D -> tour n shuffled ->
  (forall i k j r, In (k, j, r) (rounds i) -> 2 <= k <= n - 1 /\ 0 <= j <= k - 2 /\ (0 < r < 1)%Q) ->
  exists fuel0, forall fuel, (fuel0 <= fuel)%nat ->
  exists p, annealing D fuel n shuffled rounds = Ret (Some (tour_cost d p), p) /\ tour n p /\ tour_cost d p <= tour_cost d shuffled.
Proof.
  intros Hn HD T H. apply annealing_ok; [exact HD|lia|exact T|]. intros i k j r I. destruct (H i k j r I) as (A & B & C & _). split; [lia|].
  destruct (Qeq_bool r 0) eqn:E; [|reflexivity]. apply Qeq_bool_iff in E. rewrite E in C. discriminate C.
Qed.

(** The number 0.0 is a possible value, and its logarithm raises ValueError: here in the first draw, which reverses the part B
    of the shuffled path and does not make it cheaper. *)
Theorem C46_annealing_zero_refuted n d D fuel A B C rounds rest : 3 <= n -> distances n d D -> tour n (A ++ B ++ C) -> B <> [] ->
  rounds 0 = (Z.of_nat (length A + length B) - 1, Z.of_nat (length A), 0%Q) :: rest -> tour_cost d (A ++ B ++ C) <= tour_cost d (A ++ rev B ++ C) ->
  annealing D fuel n (A ++ B ++ C) rounds = Raise ValueError.
Proof.
  intros Hn HD T HB R Hc. assert (HL : (1 <= length B)%nat) by (destruct B; [congruence|cbn; lia]).
  apply (annealing_zero n d D HD Hn fuel _ rounds _ _ rest T R); [lia|].
  replace (reverse_range (A ++ B ++ C) (Z.of_nat (length A)) (Z.of_nat (length A + length B) - 1)) with (A ++ rev B ++ C); [exact Hc|].
  unfold reverse_range, reverse_slice. replace (Z.to_nat (Z.of_nat (length A) - 1 + 1)) with (length A) by lia. replace (Z.to_nat (Z.of_nat (length A + length B) - 1 + 1)) with (length A + length B)%nat by lia.
  rewrite firstn_app, firstn_all2 by lia. rewrite Nat.sub_diag. cbn [firstn]. rewrite app_nil_r. f_equal. f_equal.
  - f_equal. rewrite firstn_app_2, skipn_app, skipn_all2 by lia. rewrite Nat.sub_diag. cbn [skipn app]. rewrite firstn_app, firstn_all2 by lia. rewrite Nat.sub_diag. cbn [firstn]. rewrite app_nil_r. reflexivity.
  - rewrite app_assoc, <- app_length, skipn_app, skipn_all2 by lia. rewrite Nat.sub_diag. reflexivity.
Qed.

(** Nor does it work for fewer than three points: there is no k to draw. *)
Theorem C46_annealing_two_points_refuted d D fuel shuffled rounds : distances 2 d D -> tour 2 shuffled -> rounds 0 <> [] ->
  annealing D fuel 2 shuffled rounds = Raise ValueError.
Proof.
  intros HD T R. unfold annealing. rewrite (cost_tour 2 d D HD _ ltac:(lia) T). cbn [bind]. apply run_first. unfold anneal_round. cbn [unchanged andb]. destruct (rounds 0) as [|((k, j), r) rest]; [congruence|]. reflexivity.
Qed.

(** random_two_opt reverses one segment of the path, so permutes it; with at most three points no draw is ever accepted and the
    call does not return, with four or more some draw is. *)
Theorem C46_random_two_opt path a b : 0 <= a -> 0 <= b -> exists A B C, path = A ++ B ++ C /\ random_exchange path a b = A ++ rev B ++ C.
Proof. intros; apply random_exchange_ok; assumption. Qed.
Theorem C46_random_two_opt_three_points_refuted n a b : n <= 3 -> 0 <= a < n -> 0 <= b < n -> accepts n a b = false.
Proof. intros. apply accepts_small; assumption. Qed.
Theorem C46_random_two_opt_some_draw n a : 4 <= n -> 0 <= a < n -> exists b, 0 <= b < n /\ accepts n a b = true.
Proof. intros. apply accepts_large; assumption. Qed.

(** No points: depth_first, branch_and_bound and two_opt raise, farthest_insertion invents the city 0. *)
Theorem C46_no_points D fuel : depth_first D 0 = Raise IndexError /\ branch_and_bound D 0 = Raise IndexError /\ two_opt D fuel 0 = Raise IndexError /\ farthest_insertion D 0 = Ret (Some 0, [0]).
Proof. repeat split; reflexivity. Qed.

(** ** Examples *)
Definition d4 (i j : Z) : Z := nth (Z.to_nat (4 * i + j)) [0; 2; 9; 10; 1; 0; 6; 4; 15; 7; 0; 8; 6; 3; 12; 0] 0.
Definition d5 (i j : Z) : Z := nth (Z.to_nat (5 * i + j)) [0; 3; 4; 2; 7; 3; 0; 4; 6; 3; 4; 4; 0; 5; 8; 2; 6; 5; 0; 6; 7; 3; 8; 6; 0] 0.

Lemma matrix_of_distances d n : 0 <= n -> distances n d (matrix_of d n).
Proof.
  intros Hn. unfold matrix_of. split; [rewrite map_length, zrange_length; lia|].
  assert (E : forall i, 0 <= i < n -> nth (Z.to_nat i) (map (fun i => map (fun j => Some (d i j)) (zrange 0 n)) (zrange 0 n)) [] = map (fun j => Some (d i j)) (zrange 0 n)).
  { intros i Hi. erewrite nth_indep; [erewrite (map_nth (fun i => map (fun j => Some (d i j)) (zrange 0 n)))|rewrite map_length, zrange_length; lia]. rewrite zrange_nth by lia. replace (0 + Z.of_nat (Z.to_nat i)) with i by lia. reflexivity. Unshelve. exact 0. }
  split.
  - intros i Hi. rewrite E by exact Hi. rewrite map_length, zrange_length. lia.
  - intros i j Hi Hj _. rewrite E by exact Hi. erewrite nth_indep; [erewrite (map_nth (fun j => Some (d i j)))|rewrite map_length, zrange_length; lia]. rewrite zrange_nth by lia. do 2 f_equal. lia. Unshelve. exact 0.
Qed.

Example exact_methods : distances 4 d4 (matrix_of d4 4) /\ depth_first (matrix_of d4 4) 4 = Ret (Some 21, [0; 2; 3; 1]) /\ branch_and_bound (matrix_of d4 4) 4 = Ret (Some 21, [0; 2; 3; 1]).
Proof. split; [apply matrix_of_distances; lia|]. vm_compute. split; reflexivity. Qed.
Example heuristics : distances 5 d5 (matrix_of d5 5) /\ two_opt (matrix_of d5 5) 10 5 = Ret (Some 19, [0; 3; 4; 1; 2]) /\ farthest_insertion (matrix_of d5 5) 5 = Ret (Some 19, [0; 2; 1; 4; 3]) /\
  annealing (matrix_of d5 5) 12 5 [1; 0; 2; 3; 4] (fun i => if i =? 1 then [(4, 2, (1 # 2)%Q)] else if i =? 2 then [(4, 1, (1 # 2)%Q); (2, 0, (1 # 3)%Q); (4, 2, (1 # 2)%Q)] else []) = Ret (Some 19, [3; 4; 1; 2; 0]) /\
  annealing (matrix_of d5 5) 0 5 [1; 0; 2; 3; 4] (fun _ => [(4, 2, 0%Q)]) = Raise ValueError.
Proof. split; [apply matrix_of_distances; lia|]. vm_compute. repeat split; reflexivity. Qed.

Print Assumptions C46_depth_first.
Print Assumptions C46_branch_and_bound.
Print Assumptions C46_two_opt.
Print Assumptions C46_farthest_insertion.
Print Assumptions C46_farthest_insertion_rule.
Print Assumptions C46_steepest_ascent.
Print Assumptions C46_two_opt_asymmetric_endless_refuted.
Print Assumptions C46_two_opt_tour.
Print Assumptions C46_annealing.
Print Assumptions C46_annealing_zero_refuted.
Print Assumptions C46_annealing_two_points_refuted.
