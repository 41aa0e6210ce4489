(** * C41: tilings *)
From Coq Require Import ZArith List Lia Sorting.Permutation.
From Verif Require Import Base Count Tiling_Model Tiling_Spec Tiling_Proofs2 Tiling_Proofs3 Tiling_Proofs4.
Import ListNotations.
Open Scope Z_scope.

(** Whatever order tuples of sets have. *)
Definition any_set_order {A} (ord : nat -> list A -> list A) : Prop := forall i l, Permutation (ord i l) l.

(** C41: the number of domino tilings of every board, whatever order tuples of sets have. *)
Theorem C41_domino_tilings ord m n : any_set_order ord -> 1 <= m -> 1 <= n ->
  exists v, number_of_domino_tilings ord m n = Ret v /\ number_of (is_tiling domino m n) v.
Proof. exact (number_of_domino_tilings_ok ord m n). Qed.
Print Assumptions C41_domino_tilings.

(** C41: the number of triomino tilings (straight and L-shaped pieces). *)
Theorem C41_triomino_tilings ord m n : any_set_order ord -> 1 <= m -> 1 <= n ->
  exists v, triomino_tilings ord m n = Ret v /\ number_of (is_tiling triomino m n) v.
Proof. exact (triomino_tilings_ok ord m n). Qed.
Print Assumptions C41_triomino_tilings.

(** C41: a board with no cells is an error. *)
Theorem C41_empty_board ord m n : m * n <= 0 -> number_of_domino_tilings ord m n = Raise ValueError.
Proof.
  intros H. unfold number_of_domino_tilings. rewrite zero_cells by exact H. cbn [dom_backtrack lookup cmin bind]. reflexivity.
Qed.
Print Assumptions C41_empty_board.

Theorem C41_empty_board_triomino ord m n : m <= 0 \/ n <= 0 -> triomino_tilings ord m n = Raise ValueError.
Proof.
  intros H. assert (E : forall a b, a <= 0 \/ b <= 0 -> grid a b = []).
  { intros a b Hab. destruct (grid a b) as [|c l] eqn:Eg; [reflexivity|]. exfalso.
    assert (Hc : In c (grid a b)) by (rewrite Eg; left; reflexivity). apply grid_In in Hc. lia. }
  unfold triomino_tilings. destruct (m <? n); rewrite E by tauto; reflexivity.
Qed.
Print Assumptions C41_empty_board_triomino.

(** The hypotheses are satisfiable: tuples listing sets in a changing order. *)
Definition rev_order {A} (i : nat) (l : list A) : list A := if Nat.even i then l else rev l.
Example C41_order : any_set_order (@rev_order Z).
Proof. intros i l. unfold rev_order. destruct (Nat.even i); [reflexivity|]. symmetry. apply Permutation_rev. Qed.
Example C41_ex1 : number_of_domino_tilings rev_order 4 4 = Ret 36 /\ number_of_domino_tilings rev_order 3 3 = Ret 0
  /\ number_of_domino_tilings rev_order 6 1 = Ret 1 /\ number_of_domino_tilings rev_order 1 6 = Ret 1.
Proof. repeat split; vm_compute; reflexivity. Qed.
Example C41_ex2 : triomino_tilings rev_order 2 3 = Ret 3 /\ triomino_tilings rev_order 3 2 = Ret 3
  /\ triomino_tilings rev_order 3 3 = Ret 10.
Proof. repeat split; vm_compute; reflexivity. Qed.
