(** * C44, C45, C73: knapsack *)
From Coq Require Import ZArith List Lia Sorting.Permutation Sorting.Sorted.
From Verif Require Import Base Knap_Model Knap_Spec Knap_Proofs Knap_Proofs2 Knap_Proofs3.
Import ListNotations.
Open Scope Z_scope.

(** C44: depth-first search returns a best selection and its value. *)
Theorem C44_depth_first items capacity : Forall (fun it => 0 <= snd it) items -> 0 <= capacity ->
  exists S, knap_depth_first items capacity = (total_value S, S) /\ optimal items capacity S.
Proof. exact (knap_depth_first_ok items capacity). Qed.
Print Assumptions C44_depth_first.

(** C44: dynamic programming returns the best value and the sorted items of a best selection. *)
Theorem C44_dynamic_programming items capacity : Forall (fun it => 0 <= snd it) items -> 0 <= capacity ->
  exists S used, knap_dynamic items capacity = Ret (total_value S, used) /\
    Permutation used S /\ StronglySorted (fun a b => fst a < fst b \/ (fst a = fst b /\ snd a <= snd b)) used /\
    optimal items capacity S.
Proof. exact (knap_dynamic_ok items capacity). Qed.
Print Assumptions C44_dynamic_programming.

(** C44: the two solvers agree on the value. *)
Theorem C44_solvers_agree items capacity : Forall (fun it => 0 <= snd it) items -> 0 <= capacity ->
  exists used, knap_dynamic items capacity = Ret (fst (knap_depth_first items capacity), used).
Proof.
  intros N H. destruct (C44_depth_first items capacity N H) as (S & E & A & B & C).
  destruct (C44_dynamic_programming items capacity N H) as (S' & used & E' & _ & _ & A' & B' & C').
  exists used. rewrite E', E. cbn [fst]. specialize (C S' A' B'). specialize (C' S A B).
  replace (total_value S') with (total_value S) by lia. reflexivity.
Qed.
Print Assumptions C44_solvers_agree.

(** C44: a negative capacity is an IndexError in dynamic programming. *)
Theorem C44_dynamic_programming_negative items capacity : capacity < 0 -> knap_dynamic items capacity = Raise IndexError.
Proof. exact (knap_dynamic_neg items capacity). Qed.
Print Assumptions C44_dynamic_programming_negative.

(** C45: simulated annealing is feasible for all draws of indices and acceptances.  A draw is an index and the test
    r < math.exp(diff/temp), with temp between 367 and 1000: it does not overflow unless diff is positive or huge. *)
Theorem C45_annealing items capacity draws : Forall (fun it => 0 <= fst it <= 2 ^ 1000 /\ 0 <= snd it) items -> 0 <= capacity -> items <> [] ->
  Forall (fun d => 0 <= fst d < Z.of_nat (length items) /\ forall diff, - 2 ^ 1000 <= diff <= 0 -> snd d diff <> None) draws ->
  exists X, knap_annealing items capacity draws = Ret (total_value (masked X items), X) /\
    length X = length items /\ Forall (fun x => x = 0 \/ x = 1) X /\ total_weight (masked X items) <= capacity.
Proof.
  intros F Hc Hne Hd. destruct (knap_annealing_any items capacity draws) as [O|(_ & j & test & it & A & B & C)]; [..|exact O|].
  - unfold nonneg_weights. revert F. apply Forall_impl. tauto.
  - exact Hc.
  - exact Hne.
  - revert Hd. apply Forall_impl. tauto.
  - exfalso. rewrite Forall_forall in F, Hd. destruct (Hd _ A) as (_ & T). apply (T (- fst it)); [|exact C]. destruct (F it B). lia.
Qed.
Print Assumptions C45_annealing.

(** With any values, what it returns is feasible, if it returns at all. *)
Theorem C45_annealing_any_values items capacity draws : Forall (fun it => 0 <= snd it) items -> 0 <= capacity -> items <> [] ->
  Forall (fun d => 0 <= fst d < Z.of_nat (length items)) draws ->
  (exists X, knap_annealing items capacity draws = Ret (total_value (masked X items), X) /\
    length X = length items /\ Forall (fun x => x = 0 \/ x = 1) X /\ total_weight (masked X items) <= capacity) \/
  knap_annealing items capacity draws = Raise OverflowError.
Proof. intros A B C D. destruct (knap_annealing_any items capacity draws A B C D) as [O|(E & _)]; [left; exact O|right; exact E]. Qed.
Print Assumptions C45_annealing_any_values.

(** An item of value -10^6 or less may be taken, and trying to drop it again overflows: math.exp(x) raises for x >= 1000. *)
Theorem C45_annealing_negative_refuted v w capacity test1 test2 draws : v <= - 10 ^ 6 -> 0 <= w <= capacity ->
  (forall diff, 10 ^ 6 <= diff -> test2 diff = None) ->
  knap_annealing [(v, w)] capacity ((0, test1) :: (0, test2) :: draws) = Raise OverflowError.
Proof.
  intros Hv Hw T. change (10 ^ 6) with 1000000 in *. assert (P1 : knap_P [(v, w)] [1] = Ret v) by reflexivity. assert (P0 : knap_P [(v, w)] [0] = Ret 0) by reflexivity.
  assert (Ew : (w >? capacity) = false) by (destruct (Z.gtb_spec w capacity); [lia|reflexivity]).
  assert (Ev : (v >? 0) = false) by (destruct (Z.gtb_spec v 0); [lia|reflexivity]).
  assert (S1 : anneal_step [(v, w)] capacity {| a_items := [0]; a_weight := 0; a_best_items := [0]; a_best_value := 0 |} (0, test1) =
    Ret {| a_items := [1]; a_weight := w; a_best_items := [0]; a_best_value := 0 |}).
  { unfold anneal_step. cbn -[knap_P]. rewrite Ew, P1. cbn. rewrite Ev. reflexivity. }
  assert (S2 : anneal_step [(v, w)] capacity {| a_items := [1]; a_weight := w; a_best_items := [0]; a_best_value := 0 |} (0, test2) = Raise OverflowError).
  { unfold anneal_step. cbn -[knap_P Z.sub]. change (1 - 1) with 0. cbn -[knap_P Z.sub]. rewrite P0. cbn -[knap_P Z.sub]. rewrite P1. cbn -[Z.sub]. rewrite T by lia. reflexivity. }
  unfold knap_annealing. cbn [length map foldM Z.of_nat Z.eqb Pos.of_succ_nat]. rewrite S1. cbn [bind]. rewrite S2. reflexivity.
Qed.
Print Assumptions C45_annealing_negative_refuted.

(** C73: branch and bound with the ratios and bounds rounded to doubles.  The total value may
    not exceed 2^49; weights and the capacity are only kept away from overflow. *)
Theorem C73_branch_and_bound items capacity :
  Forall (fun it => 0 <= fst it /\ 0 < snd it <= 2 ^ 900) items -> 0 <= capacity <= 2 ^ 900 -> total_value items <= 2 ^ 49 ->
  exists S used, knap_branch_and_bound items capacity = Ret (total_value S, used) /\
    Permutation (map fst used) S /\ optimal items capacity S /\
    NoDup (map snd used) /\
    (forall v w i, In (v, w, i) used -> 0 <= i /\ nth_error items (Z.to_nat i) = Some (v, w)).
Proof.
  intros F H T. destruct (knap_branch_and_bound_ok items capacity F H T) as (S & used & A & B & C & D & E).
  exists S, used. split; [exact A|]. split; [exact B|]. split; [exact C|]. split; [exact D|].
  intros v w i Hi. apply (E (v, w, i) Hi).
Qed.
Print Assumptions C73_branch_and_bound.

(** C73: for larger values the rounding of the bound loses the optimum: the selection of the
    second item is worth 2^53 + 1. *)
Definition c73_items : list item := [(2 ^ 53, 2 ^ 53 - 1); (2 ^ 53 + 1, 2 ^ 53)].
Lemma c73_run : knap_branch_and_bound c73_items (2 ^ 53) = Ret (2 ^ 53, [(2 ^ 53, 2 ^ 53 - 1, 0)]).
Proof. vm_compute. reflexivity. Qed.
Theorem C73_large_values_refuted : exists items capacity v used S,
  Forall (fun it => 0 <= fst it /\ 0 < snd it) items /\ 0 <= capacity /\
  knap_branch_and_bound items capacity = Ret (v, used) /\ selection S items /\ total_weight S <= capacity /\ v < total_value S.
Proof.
  exists c73_items, (2 ^ 53), (2 ^ 53), [(2 ^ 53, 2 ^ 53 - 1, 0)], [(2 ^ 53 + 1, 2 ^ 53)]. split; [repeat constructor; cbn; lia|]. split; [lia|]. split; [exact c73_run|].
  split; [apply sel_skip, sel_take, sel_nil|]. split; [cbn; lia|cbn; lia].
Qed.
Print Assumptions C73_large_values_refuted.

(** C73: for values up to 2^500 in total the answer is still a selection that fits, with its value. *)
Theorem C73_feasible items capacity :
  Forall (fun it => 0 <= fst it /\ 0 < snd it <= 2 ^ 500) items -> 0 <= capacity <= 2 ^ 500 -> total_value items <= 2 ^ 500 ->
  exists S used, knap_branch_and_bound items capacity = Ret (total_value S, used) /\
    Permutation (map fst used) S /\ selection S items /\ total_weight S <= capacity /\
    NoDup (map snd used) /\
    (forall v w i, In (v, w, i) used -> 0 <= i /\ nth_error items (Z.to_nat i) = Some (v, w)).
Proof.
  intros F H T. destruct (knap_branch_and_bound_sound items capacity F H T) as (S & used & A & B & C & D & E & G).
  exists S, used. split; [exact A|]. split; [exact B|]. split; [exact C|]. split; [exact D|]. split; [exact E|].
  intros v w i Hi. apply (G (v, w, i) Hi).
Qed.
Print Assumptions C73_feasible.
Example C73_feasible_ex : Forall (fun it => 0 <= fst it /\ 0 < snd it <= 2 ^ 500) c73_items /\ total_value c73_items <= 2 ^ 500 /\
  knap_branch_and_bound c73_items (2 ^ 53) = Ret (2 ^ 53, [(2 ^ 53, 2 ^ 53 - 1, 0)]).
Proof. split; [repeat constructor; vm_compute; discriminate|]. split; [vm_compute; discriminate|exact c73_run]. Qed.

(** C73: an item of weight zero is an error, when no earlier number is too large for a float. *)
Theorem C73_zero_weight items capacity : Forall (fun it => Z.abs (fst it) < 2 ^ 1023 /\ Z.abs (snd it) < 2 ^ 1023) items -> (exists v, In (v, 0) items) ->
  knap_branch_and_bound items capacity = Raise ZeroDivisionError.
Proof. exact (zero_weight_ok items capacity). Qed.
Print Assumptions C73_zero_weight.

Definition ex_items : list item := [(24, 10); (13, 4); (23, 8); (15, 0); (16, 3); (-5, 1)].
Example C44_ex : knap_depth_first ex_items 14 = (55, [(24, 10); (15, 0); (16, 3)]) /\
  knap_dynamic ex_items 14 = Ret (55, [(15, 0); (16, 3); (24, 10)]) /\ Forall (fun it => 0 <= snd it) ex_items.
Proof.
  split; [vm_compute; reflexivity|]. split; [vm_compute; reflexivity|]. repeat (constructor; [cbn; lia|]). constructor.
Qed.
Example C45_ex : knap_annealing ex_items 14 (map (fun '(j, b) => (j, fun _ => Some b)) [(0, true); (1, false); (0, false); (0, true); (2, true)]) = Ret (37, [1; 1; 0; 0; 0; 0]).
Proof. vm_compute. reflexivity. Qed.
Example C73_ex : knap_branch_and_bound [(24, 10); (13, 4); (23, 8); (16, 3)] 14 = Ret (40, [(16, 3, 3); (24, 10, 0)]).
Proof. vm_compute. reflexivity. Qed.
