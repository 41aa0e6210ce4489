(** * C35, C36: generation of permutations and variations *)
From Coq Require Import ZArith List Lia Bool Sorting.Sorted Sorting.Permutation.
From Verif Require Import Base Lists Lists2 Gen Lex Perm_Model Perm_Proofs Perm_Proofs2 Perm_Proofs3.
Import ListNotations.
Open Scope Z_scope.

(** The generator stops after yielding, in strictly increasing lexicographic order,
    exactly the distinct rearrangements of the multiset. *)
Theorem C35_knuth_algorithm_l (elements : list Z) : exists L,
  yields (knuth_algorithm_l elements) L /\ StronglySorted lexlt L /\ NoDup L /\
  (forall l, In l L <-> Permutation l elements).
Proof.
  destruct (knuth_enum elements) as (L & H1 & H2 & H3). exists L. split; [exact H1|]. split; [exact H2|]. split; [|exact H3].
  exact (sorted_irr_NoDup lexlt lexlt_irr L H2).
Qed.

(** The faster variant does the same for at least three elements that are not all equal. *)
Theorem C35_phillips (elements : list Z) : (3 <= length elements)%nat ->
  (exists a b, In a elements /\ In b elements /\ a <> b) -> exists L,
  yields (phillips elements) L /\ StronglySorted lexlt L /\ NoDup L /\
  (forall l, In l L <-> Permutation l elements).
Proof.
  intros Hl Hne. destruct (C35_knuth_algorithm_l elements) as (L & [N HN] & H2). exists L. split; [|exact H2].
  exists N. intros fuel Hf. rewrite phillips_is_knuth by assumption. apply HN, Hf.
Qed.

(** Two different elements are also handled. *)
Theorem C35_phillips_two (a b : Z) : a < b ->
  yields (phillips [a; b]) [[a; b]; [b; a]] /\ yields (phillips [b; a]) [[a; b]; [b; a]].
Proof.
  intros H.
  assert (S1 : zsort [a; b] = [a; b]) by (unfold zsort; cbn; destruct (Z.leb_spec a b); [reflexivity|lia]).
  assert (S2 : zsort [b; a] = [a; b]) by (unfold zsort; cbn; destruct (Z.leb_spec b a); [lia|reflexivity]).
  split; (exists 3%nat; intros [|[|[|f]]] Hf; try lia); unfold phillips; rewrite ?S1, ?S2; reflexivity.
Qed.

(** ... and a single one. *)
Theorem C35_phillips_one (a : Z) : yields (phillips [a]) [[a]].
Proof. exists 2%nat. intros [|[|f]] Hf; try lia. reflexivity. Qed.
Print Assumptions C35_phillips_one.

(** On other inputs the claim fails: duplicates for two equal elements, IndexError
    for an empty list, and IndexError after the only arrangement of m >= 3 equal elements. *)
Theorem C35_phillips_refuted :
  (forall a fuel, exists s, phillips [a; a] (2 + fuel) = ([[a; a]; [a; a]], s)) /\
  (forall fuel, exists l, phillips [] (S fuel) = (l, GRaised IndexError)) /\
  (forall a m fuel, (3 <= m)%nat -> phillips (repeat a m) (S fuel) = ([repeat a m], GRaised IndexError)).
Proof.
  split; [|split].
  - intros a fuel. assert (S : zsort [a; a] = [a; a]) by (unfold zsort; cbn; rewrite Z.leb_refl; reflexivity).
    unfold phillips; rewrite S. eexists. reflexivity.
  - intros. eexists. reflexivity.
  - intros a m fuel Hm. apply phillips_const, Hm.
Qed.

(** Variations: every arrangement of every sub-multiset, once, in lexicographic order. *)
Theorem C36_variations (elements : list Z) : exists L,
  yields (knuth_algorithm_l_variations elements) L /\ StronglySorted lexlt L /\ NoDup L /\
  (forall a, In a L <-> exists t, Permutation (a ++ t) elements).
Proof.
  destruct (variations_enum elements) as (L & H1 & H2 & H3). exists L. split; [exact H1|]. split; [exact H2|]. split; [|exact H3].
  exact (sorted_irr_NoDup lexlt lexlt_irr L H2).
Qed.

(** r-variations: every arrangement of every sub-multiset of size r. *)
Theorem C36_rvariations (elements : list Z) (r : Z) : 0 <= r <= Z.of_nat (length elements) -> elements <> [] -> exists L,
  yields (knuth_algorithm_l_rvariations elements r) L /\ StronglySorted lexlt L /\ NoDup L /\
  (forall a, In a L <-> Z.of_nat (length a) = r /\ exists t, Permutation (a ++ t) elements).
Proof.
  intros Hr Hne. destruct (rvariations_enum elements r Hr Hne) as (L & H1 & H2 & H3). exists L.
  split; [exact H1|]. split; [exact H2|]. split; [|exact H3]. exact (sorted_irr_NoDup lexlt lexlt_irr L H2).
Qed.

(** The empty multiset has one 0-variation, but the generator raises after yielding it. *)
Theorem C36_rvariations_refuted fuel : knuth_algorithm_l_rvariations [] 0 (S fuel) = ([[]], GRaised IndexError).
Proof. reflexivity. Qed.

Example knuth_112 : knuth_algorithm_l [2; 1; 1] 9 = ([[1; 1; 2]; [1; 2; 1]; [2; 1; 1]], GEnded).
Proof. reflexivity. Qed.
Example phillips_122 : phillips [2; 1; 2] 9 = ([[1; 2; 2]; [2; 1; 2]; [2; 2; 1]], GEnded).
Proof. reflexivity. Qed.
Example variations_12 : knuth_algorithm_l_variations [1; 2] 9 = ([[]; [1]; [1; 2]; [2]; [2; 1]], GEnded).
Proof. reflexivity. Qed.
Example rvariations_123 : knuth_algorithm_l_rvariations [1; 2; 3] 2 9 = ([[1; 2]; [1; 3]; [2; 1]; [2; 3]; [3; 1]; [3; 2]], GEnded).
Proof. reflexivity. Qed.

Print Assumptions C35_knuth_algorithm_l.
Print Assumptions C35_phillips.
Print Assumptions C35_phillips_two.
Print Assumptions C35_phillips_refuted.
Print Assumptions C36_variations.
Print Assumptions C36_rvariations.
Print Assumptions C36_rvariations_refuted.
