(** * C33, C34: combinations and tuples *)
From Coq Require Import ZArith List Lia Bool Sorting.Sorted Sorting.Permutation.
From Verif Require Import Base Lists Lists2 Gen Lex Perm_Proofs Tuples_Model Tuples_Proofs.
Import ListNotations.
Open Scope Z_scope.

(** For 0 <= t <= n the generator stops after yielding every t-subset of
    {0, ..., n - 1} exactly once, each as a decreasing list, in lexicographic order. *)
Theorem C33_combinations (n t : Z) : 0 <= t <= n -> exists L,
  yields (combinations n t) L /\ StronglySorted lexlt L /\ NoDup L /\
  (forall d, In d L <-> Z.of_nat (length d) = t /\ StronglySorted (fun x y => y < x) d /\ Forall (fun x => 0 <= x < n) d).
Proof.
  intros H. destruct (combinations_enum n t H) as (L & H1 & H2 & H3). exists L. split; [exact H1|]. split; [exact H2|].
  split; [exact (sorted_irr_NoDup lexlt lexlt_irr L H2)|exact H3].
Qed.

(** For t > n the first list yielded is not a subset of {0, ..., n - 1}
    (it contains t - 1 >= n), instead of nothing being yielded. *)
Theorem C33_out_of_range_refuted (n t : Z) fuel : 0 <= n < t ->
  exists d rest s, combinations n t (S fuel) = (d :: rest, s) /\ In (t - 1) d.
Proof.
  intros H. unfold combinations. cbn [gen].
  assert (V : In (t - 1) (comb_visit t (comb_start n t))).
  { unfold comb_visit, comb_start. cbn [app tl]. apply -> in_rev.
    rewrite firstn_app, firstn_all2 by (rewrite map_length, zrange_length; lia). apply in_or_app. left.
    apply in_map_iff. exists t. split; [reflexivity|]. apply zrange_In. lia. }
  destruct (comb_next t (comb_start n t)) as [[c|]|e|].
  - destruct (gen _ _ fuel c) as [rest s]. do 3 eexists. split; [reflexivity|exact V].
  - do 3 eexists. split; [reflexivity|exact V].
  - do 3 eexists. split; [reflexivity|exact V].
  - do 3 eexists. split; [reflexivity|exact V].
Qed.

(** Mixed radices: all tuples a with 0 <= a[j] < M[j], once each, in lexicographic order. *)
Theorem C34_n_tuples_mixed (M : list Z) : Forall (fun m => 1 <= m) M -> exists L,
  yields (n_tuples (Z.of_nat (length M)) (RList M)) L /\ StronglySorted lexlt L /\ NoDup L /\
  (forall a, In a L <-> Forall2 (fun x m => 0 <= x < m) a M).
Proof.
  intros H. destruct (n_tuples_list_enum M H) as (L & H1 & H2 & H3). exists L. split; [exact H1|]. split; [exact H2|].
  split; [exact (sorted_irr_NoDup lexlt lexlt_irr L H2)|exact H3].
Qed.

(** A single radix b. *)
Theorem C34_n_tuples_base (n b : Z) : 0 <= n -> 1 <= b -> exists L,
  yields (n_tuples n (RInt b)) L /\ StronglySorted lexlt L /\ NoDup L /\
  (forall a, In a L <-> Z.of_nat (length a) = n /\ Forall (fun x => 0 <= x < b) a).
Proof.
  intros Hn Hb. destruct (n_tuples_int_enum n b Hn Hb) as (L & H1 & H2 & H3). exists L. split; [exact H1|]. split; [exact H2|].
  split; [exact (sorted_irr_NoDup lexlt lexlt_irr L H2)|exact H3].
Qed.

(** No radix: binary tuples. *)
Theorem C34_n_tuples_default (n : Z) : 0 <= n -> exists L,
  yields (n_tuples n RNone) L /\ StronglySorted lexlt L /\ NoDup L /\
  (forall a, In a L <-> Z.of_nat (length a) = n /\ Forall (fun x => 0 <= x < 2) a).
Proof. intros Hn. exact (C34_n_tuples_base n 2 Hn ltac:(lia)). Qed.

Example combinations_4_2 : combinations 4 2 9 = ([[1; 0]; [2; 0]; [2; 1]; [3; 0]; [3; 1]; [3; 2]], GEnded).
Proof. reflexivity. Qed.
Example n_tuples_23 : n_tuples 2 (RList [2; 3]) 9 = ([[0; 0]; [0; 1]; [0; 2]; [1; 0]; [1; 1]; [1; 2]], GEnded).
Proof. reflexivity. Qed.

Print Assumptions C33_combinations.
Print Assumptions C33_out_of_range_refuted.
Print Assumptions C34_n_tuples_mixed.
Print Assumptions C34_n_tuples_base.
Print Assumptions C34_n_tuples_default.
