(** * C28: the counting sieves *)
From Coq Require Import ZArith List Lia Bool.
From Verif Require Import Base Bit_Model Bit_Spec Bit_Proofs.
Import ListNotations.
Open Scope Z_scope.

Lemma marks_bit : forall ps b un, bwf b -> binv (bn b) un (get2 (bA b)) -> Forall (fun p => 1 <= p) ps ->
  exists b', foldM bit_mark ps b = Ret b' /\ bwf b' /\ bn b' = bn b /\
    binv (bn b') (fun y => un y && unmarked ps y) (get2 (bA b')).
Proof.
  induction ps as [|p ps IH]; intros b un W H F; cbn [foldM].
  - exists b. repeat split; try apply W. apply (binv_ext (bn b) un); [|destruct W; lia|exact H].
    intros x _. symmetry. apply andb_true_r.
  - inversion_clear F as [|? ? F0 F1]. destruct (bit_mark_ok b un p W) as (b1 & -> & W1 & N1 & H1); [assumption|assumption|]. cbn [bind].
    destruct (IH b1 _ W1 H1) as (b' & E & W' & N' & H'); [assumption|]. exists b'. split; [exact E|]. split; [exact W'|].
    split; [congruence|]. eapply binv_ext; [|destruct W'; lia|exact H']. intros x _. cbn [unmarked forallb]. cbv beta.
    rewrite andb_assoc. reflexivity.
Qed.

(** After any sequence of markings, [partial_sum(m)] is the number of integers in
    [1, m] that are multiples of none of the marked numbers. *)
Theorem C28_partial_sum (n : Z) (ps : list Z) (m : Z) :
  0 <= m <= n -> Forall (fun p => 1 <= p) ps ->
  exists b b', bit_init n = Ret b /\ foldM bit_mark ps b = Ret b' /\
    bit_partial_sum b' m = Ret (unmarked_count ps m).
Proof.
  intros Hm F. destruct (bit_init_ok n) as (b & E & N & W & H); [lia|].
  rewrite <- N in H. destruct (marks_bit ps b full W H F) as (b' & E' & W' & N' & H').
  exists b, b'. split; [exact E|]. split; [exact E'|]. unfold bit_partial_sum.
  rewrite (psum_top (bn b') _ _ m H') by lia. f_equal.
Qed.

(** [entries] is the characteristic function of the unmarked numbers. *)
Theorem C28_entries (n : Z) (ps : list Z) :
  0 <= n -> Forall (fun p => 1 <= p) ps ->
  exists b b', bit_init n = Ret b /\ foldM bit_mark ps b = Ret b' /\
    bit_entries b' = Ret (map (fun x => if unmarked ps x then 1 else 0) (zrange 1 (n + 1))).
Proof.
  intros Hn F. destruct (bit_init_ok n Hn) as (b & E & N & W & H).
  rewrite <- N in H. destruct (marks_bit ps b full W H F) as (b' & E' & W' & N' & H').
  exists b, b'. split; [exact E|]. split; [exact E'|]. unfold bit_entries. rewrite N', N.
  assert (G : forall x, In x (zrange 1 (n + 1)) -> get2 (bA b') 0 x = Ret (if unmarked ps x then 1 else 0)).
  { intros x Hx. apply zrange_In in Hx. rewrite (H' 0 x) by (rewrite ?lev_0; lia). rewrite blk_0. reflexivity. }
  revert G. generalize (zrange 1 (n + 1)). induction l as [|x l IH]; intros G; [reflexivity|].
  cbn [bit_entries_from map]. rewrite G by (left; reflexivity). cbn [bind].
  rewrite IH by (intros y Hy; apply G; right; exact Hy). reflexivity.
Qed.

Lemma marks_bita : forall ps b un, awf b un -> Forall (fun p => 1 <= p) ps ->
  exists b', foldM bita_mark ps b = Ret b' /\ an b' = an b /\ awf b' (fun y => un y && unmarked ps y).
Proof.
  induction ps as [|p ps IH]; intros b un W F; cbn [foldM].
  - exists b. split; [reflexivity|]. split; [reflexivity|]. destruct W as [W1 [W2 W3]]. split; [exact W1|]. split; [|exact W3].
    apply (lvls_ext _ un); [exact W1| |lia|exact W2]. intros x _. symmetry. apply andb_true_r.
  - inversion_clear F as [|? ? F0 F1]. destruct (bita_mark_ok b un p W) as (b1 & -> & N1 & W1); [assumption|]. cbn [bind].
    destruct (IH b1 _ W1) as (b' & E & N' & W'); [assumption|]. exists b'. split; [exact E|]. split; [congruence|].
    destruct W' as [V1 [V2 V3]]. split; [exact V1|]. split; [|exact V3].
    eapply lvls_ext; [exact V1| |lia|exact V2]. intros x _. cbn [unmarked forallb]. cbv beta. rewrite andb_assoc. reflexivity.
Qed.

(** The array version gives the same answers. *)
Theorem C28_array_partial_sum (n : Z) (ps : list Z) (m : Z) :
  0 <= m <= n -> Forall (fun p => 1 <= p) ps ->
  exists b b', bita_init n = Ret b /\ foldM bita_mark ps b = Ret b' /\
    bita_partial_sum b' m = Ret (unmarked_count ps m).
Proof.
  intros Hm F. destruct (bita_init_ok n) as (b & E & N & W); [lia|].
  destruct (marks_bita ps b full W F) as (b' & E' & N' & W'). exists b, b'. split; [exact E|]. split; [exact E'|].
  destruct W' as [V1 V2]. unfold bita_partial_sum. rewrite (psum_top (an b') _ _ m (rowsok_binv _ _ _ V1 V2)) by lia. reflexivity.
Qed.

(** Marking the multiples of 0 is an error. *)
Theorem C28_zero (b : bit) (b' : bita) : bit_mark b 0 = Raise ValueError /\ bita_mark b' 0 = Raise ValueError.
Proof. split; reflexivity. Qed.

Example C28_ex : (do b <- bit_init 30; do b <- foldM bit_mark [2; 3; 6; 5] b; bit_partial_sum b 29) = Ret 8.
Proof. reflexivity. Qed.
Example C28_ex_array : (do b <- bita_init 30; do b <- foldM bita_mark [2; 3; 6; 5] b; bita_partial_sum b 29) = Ret 8.
Proof. reflexivity. Qed.

Print Assumptions C28_partial_sum.
Print Assumptions C28_entries.
Print Assumptions C28_array_partial_sum.
Print Assumptions C28_zero.
