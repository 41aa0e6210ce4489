(** * C77: arithmetic progressions in a sorted list *)
From Coq Require Import ZArith List Bool Lia Sorting.Sorted.
From Verif Require Import Base Sums Prog_Spec Prog_Model Prog_Proofs.
Import ListNotations.
Open Scope Z_scope.

Lemma nondecreasing_rd A : StronglySorted Z.le A -> forall i j, 0 <= i <= j -> j < zlen A -> rd A i <= rd A j.
Proof.
  intros S. induction S as [|x A S IH F]; intros i j Hi Hj; [unfold zlen in Hj; cbn in Hj; lia|]. rewrite Forall_forall in F.
  assert (L : zlen (x :: A) = zlen A + 1) by (unfold zlen; cbn [length]; lia).
  assert (T : forall k, 0 < k -> rd (x :: A) k = rd A (k - 1)). { intros k Hk. unfold rd. destruct (Z.ltb_spec k 0); [lia|]. destruct (Z.ltb_spec (k - 1) 0); [lia|]. replace (Z.to_nat k) with (Datatypes.S (Z.to_nat (k - 1))) by lia. reflexivity. }
  destruct (Z.eq_dec j 0) as [->|Nj]; [replace i with 0 by lia; lia|]. rewrite (T j) by lia. destruct (Z.eq_dec i 0) as [->|Ni].
  - change (rd (x :: A) 0) with x. apply F. apply (In_rd A). exists (j - 1). split; [lia|reflexivity].
  - rewrite (T i) by lia. apply IH; lia.
Qed.
Lemma rd_nth A i : 0 <= i -> rd A i = nth (Z.to_nat i) A 0.
Proof. intros H. unfold rd. destruct (Z.ltb_spec i 0); [lia|reflexivity]. Qed.
Lemma increasing_rd A : StronglySorted Z.lt A -> forall i j, 0 <= i < j -> j < zlen A -> rd A i < rd A j.
Proof.
  intros S. induction S as [|x A S IH F]; intros i j Hi Hj; [unfold zlen in Hj; cbn in Hj; lia|]. rewrite Forall_forall in F.
  assert (L : zlen (x :: A) = zlen A + 1) by (unfold zlen; cbn [length]; lia).
  assert (T : forall k, 0 < k -> rd (x :: A) k = rd A (k - 1)). { intros k Hk. unfold rd. destruct (Z.ltb_spec k 0); [lia|]. destruct (Z.ltb_spec (k - 1) 0); [lia|]. replace (Z.to_nat k) with (Datatypes.S (Z.to_nat (k - 1))) by lia. reflexivity. }
  rewrite (T j) by lia. destruct (Z.eq_dec i 0) as [->|Ni].
  - change (rd (x :: A) 0) with x. apply F. apply (In_rd A). exists (j - 1). split; [lia|reflexivity].
  - rewrite (T i) by lia. apply IH; lia.
Qed.

(** has_three_term_ap on a non-decreasing list: the triple it returns is a progression
    at increasing positions (given as positions or as values), and it answers False only
    when there is none. *)
Theorem C77_three_term A : StronglySorted Z.le A ->
  (exists i j k x y z, three_term_indices A = Ret (Some (i, j, k)) /\ has_three_term_ap A = Ret (Some (x, y, z)) /\
     0 <= i < j /\ j < k < Z.of_nat (length A) /\
     nth (Z.to_nat i) A 0 = x /\ nth (Z.to_nat j) A 0 = y /\ nth (Z.to_nat k) A 0 = z /\ x + z = 2 * y) \/
  (three_term_indices A = Ret None /\ has_three_term_ap A = Ret None /\
     forall i j k : nat, (i < j < k)%nat -> (k < length A)%nat -> nth i A 0 + nth k A 0 <> 2 * nth j A 0).
Proof.
  intros S. pose proof (three_scan A (nondecreasing_rd A S) 1 ltac:(lia)) as H. fold (zlen A). unfold has_three_term_ap, three_term_indices. fold (zlen A). cbv zeta in H. destruct H as [(E & N)|(i & j & k & E & Hi & Hk & Ha)]; rewrite E; cbn [bind].
  - right. split; [reflexivity|]. split; [reflexivity|]. intros i j k Hij Hk H. apply (N (Z.of_nat j) ltac:(unfold zlen; lia) (Z.of_nat i) (Z.of_nat k) ltac:(lia) ltac:(unfold zlen; lia)).
    rewrite !rd_nth by lia. rewrite !Nat2Z.id. exact H.
  - left. exists i, j, k, (rd A i), (rd A j), (rd A k). rewrite !rd_get by lia. cbn [bind]. rewrite !rd_nth in * by lia. split; [reflexivity|]. split; [reflexivity|]. repeat (split; [assumption || reflexivity|]). exact Ha.
Qed.

(** longest_ap on an increasing list: every entry of the sorted, duplicate-free result is a
    longest progression, and all longest progressions are there once some have three terms. *)
Theorem C77_longest_ap A : StronglySorted Z.lt A ->
  exists l, longest_ap A = Ret l /\ StronglySorted tuple_le l /\ NoDup l /\
    (forall p, In p l -> longest_in A p) /\
    ((exists p, ap_in A 3 p) -> forall p, In p l <-> longest_in A p).
Proof.
  intros S. destruct (longest_ap_ok A (increasing_rd A S)) as (l & E & S1 & N & H1 & H2). exists l. split; [exact E|]. split; [exact S1|]. split; [exact N|]. split; [exact H1|]. intros H3 p. split; [apply H1|apply H2, H3].
Qed.

(** Without three elements in progression the longest progressions are the pairs of elements,
    and exactly those are returned that do not end in the last element of the list. *)
Theorem C77_longest_ap_pairs A : StronglySorted Z.lt A -> (forall p, ~ ap_in A 3 p) ->
  exists l, longest_ap A = Ret l /\
    (forall p, longest_in A p <-> exists x y, p = [x; y] /\ x < y /\ In x A /\ In y A) /\
    (forall p, In p l <-> exists x y, p = [x; y] /\ x < y /\ In x A /\ In y (removelast A)).
Proof.
  intros S No. pose proof (increasing_rd A S) as St. destruct (longest_ap_pairs A St No) as (l & E & H). exists l. split; [exact E|]. split.
  - assert (P2 : forall a d, progression a d 2 = [a; a + d]) by (intros a d; unfold progression; change (zrange 0 2) with [0; 1]; cbn [map]; rewrite Z.mul_0_r, Z.mul_1_r, Z.add_0_r; reflexivity).
    assert (Two : forall m p, ap_in A m p -> m = 2).
    { intros m p (Hm & a & d & Hd & -> & I). destruct (Z.eq_dec m 2) as [|X]; [assumption|exfalso]. apply (No (progression a d 3)). split; [lia|]. exists a, d. split; [exact Hd|]. split; [reflexivity|]. intros x Hx. apply I. apply progression_In in Hx as (k & Hk & ->). apply progression_In. exists k. split; [lia|reflexivity]. }
    intros p. split.
    + intros (m & Hp & _). pose proof (Two _ _ Hp). subst m. destruct Hp as (_ & a & d & Hd & -> & I). rewrite P2 in *. exists a, (a + d). split; [reflexivity|]. split; [lia|]. split; apply I; cbn; auto.
    + intros (x & y & -> & L & Ix & Iy). exists 2. split; [|intros m' p' H'; rewrite (Two _ _ H'); lia]. split; [lia|]. exists x, (y - x). split; [lia|]. split; [rewrite P2; do 2 f_equal; lia|]. intros z [<-|[<-|[]]]; assumption.
  - assert (RL : forall y, In y (removelast A) <-> exists j, 0 <= j < zlen A - 1 /\ rd A j = y).
    { intros y. destruct A as [|a A'] using rev_ind; [cbn; split; [intros []|intros (j & Hj & _); unfold zlen in Hj; cbn in Hj; lia]|]. clear IHA'. rewrite removelast_last. unfold zlen. rewrite app_length. cbn [length]. rewrite In_rd. unfold zlen. split; intros (j & Hj & <-); exists j; (split; [lia|]); rewrite !rd_nth by lia; [rewrite app_nth1 by lia; reflexivity|rewrite app_nth1 by lia; reflexivity]. }
    intros p. rewrite H. split.
    + intros (i & j & Hij & Hj & ->). exists (rd A i), (rd A j). split; [reflexivity|]. split; [apply St; lia|]. split; [apply In_rd; exists i; split; [lia|reflexivity]|apply RL; exists j; split; [lia|reflexivity]].
    + intros (x & y & -> & L & Ix & Iy). apply In_rd in Ix as (i & Hi & <-). apply RL in Iy as (j & Hj & <-). exists i, j. split; [|split; [lia|reflexivity]]. split; [lia|]. apply (rd_lt A St); [lia|lia|exact L].
Qed.

(** So "all are returned" fails for every list of at least two elements without three in progression. *)
Theorem C77_longest_ap_refuted A x y : StronglySorted Z.lt (A ++ [x; y]) -> (forall p, ~ ap_in (A ++ [x; y]) 3 p) ->
  longest_in (A ++ [x; y]) [x; y] /\ exists l, longest_ap (A ++ [x; y]) = Ret l /\ ~ In [x; y] l.
Proof.
  intros S No. destruct (C77_longest_ap_pairs _ S No) as (l & E & H1 & H2).
  assert (O : x < y /\ ~ In y (A ++ [x])).
  { clear -S. induction A as [|a A IH]; cbn [app] in *.
    - inversion_clear S as [|? ? _ F]. inversion_clear F. split; [assumption|]. intros [<-|[]]; lia.
    - inversion_clear S as [|? ? S' F]. destruct (IH S') as [O N]. split; [exact O|]. intros [<-|X]; [|exact (N X)]. rewrite Forall_forall in F. specialize (F a). cut (a < a); [lia|]. apply F, in_or_app. right. cbn. auto. }
  destruct O as [O N]. split.
  - apply H1. exists x, y. split; [reflexivity|]. split; [exact O|]. split; apply in_or_app; right; cbn; auto.
  - exists l. split; [exact E|]. intros X. apply H2 in X as (x' & y' & E' & _ & _ & Iy). injection E' as <- <-. replace (A ++ [x; y]) with ((A ++ [x]) ++ [y]) in Iy by (rewrite <- app_assoc; reflexivity). rewrite removelast_last in Iy. exact (N Iy).
Qed.
Example C77_pairs_ex : StronglySorted Z.lt [1; 2; 4] /\ (forall p, ~ ap_in [1; 2; 4] 3 p) /\ longest_ap [1; 2; 4] = Ret [[1; 2]].
Proof.
  split; [repeat constructor|]. split; [|vm_compute; reflexivity]. intros p (_ & a & d & Hd & -> & I).
  assert (H0 : In (a + d * 0) [1; 2; 4]) by (apply I, progression_In; exists 0; split; [lia|reflexivity]).
  assert (H1 : In (a + d * 1) [1; 2; 4]) by (apply I, progression_In; exists 1; split; [lia|reflexivity]).
  assert (H2 : In (a + d * 2) [1; 2; 4]) by (apply I, progression_In; exists 2; split; [lia|reflexivity]).
  cbn [In] in H0, H1, H2. lia.
Qed.

Print Assumptions C77_three_term.
Print Assumptions C77_longest_ap.
Print Assumptions C77_longest_ap_pairs.
Print Assumptions C77_longest_ap_refuted.

(** Non-vacuity: the examples of the documentation. *)
Example ex_three : has_three_term_ap [2; 3; 5; 7; 11; 13; 17; 19] = Ret (Some (3, 5, 7)) /\
  three_term_indices [2; 3; 5; 7; 11; 13; 17; 19] = Ret (Some (1, 2, 3)) /\ has_three_term_ap [2; 3; 7; 13] = Ret None.
Proof. vm_compute. repeat split; reflexivity. Qed.
Example ex_longest : longest_ap [2; 3; 5; 7; 11; 17; 23] = Ret [[5; 11; 17; 23]] /\
  longest_ap [1; 2; 4; 5; 7; 8] = Ret [[1; 4; 7]; [2; 5; 8]].
Proof. vm_compute. repeat split; reflexivity. Qed.
