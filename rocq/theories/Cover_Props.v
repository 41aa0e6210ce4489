(** * Exact cover by bit vectors: the properties *)
From Coq Require Import ZArith List Lia.
From Verif Require Import Base Count Gen Cover_Model Cover_Spec Cover_Proofs Cover_Proofs2 Cover_Proofs3 Tiling_Spec.
Import ListNotations.
Open Scope Z_scope.

(** C42: solutions() yields, for each exact cover (a set of positions in the list of
    vectors), its vectors in the order of their lowest bits; each cover once. *)
Theorem C42_solutions ints m : (forall v, In v ints -> 0 < v) -> is_width ints m ->
  exists L, NoDup L /\ (forall I, In I L <-> exact_cover ints m I) /\
    yields (ec_solutions ints) (map (fun I => map (fun i => nth i ints 0) I) L).
Proof.
  intros P W. destruct (ec_loop_solutions ints m P (proj1 W) (proj1 (proj2 W))) as (L & N & H & Y).
  exists L. split; [exact N|]. split; [exact H|]. unfold ec_solutions.
  rewrite (width_unique ints _ _ P (num_bits_width ints P) W). exact Y.
Qed.
Print Assumptions C42_solutions.

(** C42: number_of_solutions() is the number of exact covers. *)
Theorem C42_number_of_solutions ints m : (forall v, In v ints -> 0 < v) -> is_width ints m ->
  exists t, ec_number_of_solutions ints = Ret t /\ number_of (exact_cover ints m) t.
Proof.
  intros P W. destruct (ec_count ints m P (proj1 W) (proj1 (proj2 W))) as (t & cache & E & V).
  exists t. split; [|exact V]. unfold ec_number_of_solutions. rewrite (width_unique ints _ _ P (num_bits_width ints P) W), E. reflexivity.
Qed.
Print Assumptions C42_number_of_solutions.

(** C42: every list of positive integers has a width, and only one. *)
Theorem C42_width ints : (forall v, In v ints -> 0 < v) -> exists m, is_width ints m /\ forall m', is_width ints m' -> m' = m.
Proof.
  intros P. exists (ec_num_bits ints). split; [apply num_bits_width, P|]. intros m' H. exact (width_unique ints _ _ P H (num_bits_width ints P)).
Qed.
Print Assumptions C42_width.

(** C42: domino_tilings(n) counts the domino tilings of the n x n board, n = 1 apart. *)
Theorem C42_domino_tilings n : 2 <= n -> exists v, domino_tilings n = Ret v /\ number_of (is_tiling domino n n) v.
Proof. exact (domino_tilings_ok n). Qed.
Print Assumptions C42_domino_tilings.

(** C42: for n = 1 there are no vectors, and the count is 1 although a single square
    cannot be tiled. *)
Theorem C42_domino_tilings_refuted : domino_tilings 1 = Ret 1 /\ number_of (is_tiling domino 1 1) 0.
Proof.
  split; [vm_compute; reflexivity|]. apply number_of_none. intros T (A & _ & N & H).
  assert (X : In (0, 0) (concat T)) by (apply H; cbn [fst snd]; lia). apply in_concat in X as (p & Hp & _).
  rewrite Forall_forall in A. destruct (A p Hp) as (a & b & -> & B & _).
  assert (Q : forall c, In c [a; b] -> c = (0, 0)).
  { intros [x y] Hc. assert (Hin : In (x, y) (concat T)) by (apply in_concat; eauto). apply H in Hin. cbn [fst snd] in Hin. f_equal; lia. }
  rewrite (Q a), (Q b) in B by (cbn [In]; auto). unfold before in B. cbn [fst snd] in B. lia.
Qed.
Print Assumptions C42_domino_tilings_refuted.

(** C42: langford_pairings(n) is half the number of Langford sequences of order n (one
    for each pair of mirror images). *)
Theorem C42_langford_pairings n : 1 <= n -> exists c, number_of (langford n) (2 * c) /\ langford_pairings n = Ret c.
Proof. exact (langford_pairings_ok n). Qed.
Print Assumptions C42_langford_pairings.

Example C42_ex : ec_number_of_solutions [1; 6; 2; 4; 6] = Ret 3 /\ is_width [1; 6; 2; 4; 6] 3 /\ exact_cover [1; 6; 2; 4; 6] 3 [0%nat; 1%nat].
Proof.
  split; [vm_compute; reflexivity|]. split.
  - split; [lia|]. split; [intros v Hv; cbn [In] in Hv; lia|]. intros _. exists 6. split; [right; left; reflexivity|vm_compute; congruence].
  - split; [intros i [<-|[<-|[]]]; cbn [length]; lia|]. split.
    + assert (L1 : lowest_bit 1 0) by (split; [lia|]; split; [reflexivity|]; intros; lia).
      assert (L2 : lowest_bit 6 1) by (split; [lia|]; split; [reflexivity|]; intros i Hi; replace i with 0 by lia; reflexivity).
      constructor; [constructor; [constructor|constructor]|]. constructor; [|constructor]. exists 0, 1. repeat split; try apply L1; try apply L2; lia.
    + intros b Hb. assert (H : b = 0 \/ b = 1 \/ b = 2) by lia. destruct H as [-> | [-> | ->]]; reflexivity.
Qed.
Example C42_ex2 : domino_tilings 4 = Ret 36 /\ langford_pairings 3 = Ret 1 /\ langford 3 [3; 1; 2; 1; 3; 2].
Proof.
  split; [vm_compute; reflexivity|]. split; [vm_compute; reflexivity|]. split; [reflexivity|]. split.
  - repeat (constructor; [lia|]). constructor.
  - intros k Hk. assert (H : k = 1 \/ k = 2 \/ k = 3) by lia. destruct H as [-> | [-> | ->]]; [exists 1%nat|exists 2%nat|exists 0%nat];
      (split; [cbn; lia|]; intros i Hi; cbn [length] in Hi; do 6 (destruct i as [|i]; [cbn; lia|]); lia).
Qed.
