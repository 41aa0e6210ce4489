(** * C37: generation of integer partitions *)
From Coq Require Import ZArith List Lia Bool Sorting.Sorted Sorting.Permutation.
From Verif Require Import Base Lists Lists2 Gen Lex Perm_Proofs Part_Model Part_Proofs Part_Proofs2.
Import ListNotations.
Open Scope Z_scope.

(** [integer_partitions(n)], n >= 1: every nonincreasing list of positive integers
    with sum n, once, in decreasing lexicographic order. *)
Theorem C37_all_partitions (n : Z) : 1 <= n -> exists L,
  yields (integer_partitions n None false None) L /\ StronglySorted (fun a b => lexlt b a) L /\ NoDup L /\
  (forall a, In a L <-> Forall (fun x => 1 <= x) a /\ StronglySorted (fun x y => y <= x) a /\ zsum a = n).
Proof.
  intros Hn. destruct (algorithm_p_enum n Hn) as (L & H1 & H2 & H3). exists L. split; [exact H1|]. split; [exact H2|].
  split; [exact (sorted_irr_NoDup (fun a b => lexlt b a) (fun a => lexlt_irr a) L H2)|exact H3].
Qed.

(** [num_parts=m], 2 <= m <= n: exactly the partitions with m parts. *)
Theorem C37_num_parts (n m : Z) : 2 <= m <= n -> exists L,
  yields (integer_partitions n None false (Some m)) L /\ NoDup L /\
  (forall a, In a L <-> Forall (fun x => 1 <= x) a /\ StronglySorted (fun x y => y <= x) a /\ zsum a = n /\ Z.of_nat (length a) = m).
Proof.
  intros Hm. destruct (algorithm_h_enum n m Hm) as (L & [N H1] & H2 & H3). exists L. split; [|split].
  - exists N. intros fuel Hf. rewrite <- (H1 fuel Hf). unfold integer_partitions. cbn [orb].
    destruct (Z.gtb_spec m n); [lia|]. destruct (Z.eqb_spec m 0); [lia|]. reflexivity.
  - exact (sorted_irr_NoDup (fun a b => lexlt (rev a) (rev b)) (fun a => lexlt_irr (rev a)) L H2).
  - intros a. rewrite H3. unfold is_partition, desc. tauto.
Qed.

Lemma rev_sort_dec l : NoDup l -> StronglySorted (fun x y => y < x) (rev (zsort l)).
Proof.
  intros H. pose proof (zsort_strict l H) as S. induction S as [|x s S IH F]; cbn [rev]; [constructor|].
  apply SSorted_app; [exact IH|repeat constructor|]. intros u v Hu [<-|[]]. apply in_rev in Hu. rewrite Forall_forall in F. apply F, Hu.
Qed.

Lemma rev_sort_In l x : In x (rev (zsort l)) <-> In x l.
Proof. rewrite <- in_rev. apply zsort_In. Qed.

(** Not more parts wanted than n. *)
Definition not_too_many (n : Z) (np : option Z) : Prop := match np with Some m => m <= n | None => True end.
(** The requested number of parts; None and 0 both mean any number. *)
Definition right_number (np : option Z) (a : list Z) : Prop :=
  match np with Some m => m = 0 \/ Z.of_nat (length a) = m | None => True end.

Lemma backtrack_gen n parts np (distinct : bool) ps : ps = match parts with Some l => rev (zsort l) | None => rev (zrange 1 (n + 1)) end ->
  distinct = true \/ parts <> None ->
  Forall (fun x => 1 <= x) ps -> StronglySorted (fun x y => y < x) ps -> not_too_many n np -> exists L,
  yields (integer_partitions n parts distinct np) L /\ NoDup L /\
  (forall a, In a L <-> Forall (fun x => In x ps) a /\ StronglySorted (may_follow ps distinct) a /\ zsum a = n /\ right_number np a).
Proof.
  intros Eps Hc Hpos Hdec Hnp. set (m := match np with Some m => m | None => 0 end).
  destruct (backtrack_enum n ps distinct m Hpos Hdec (Z.to_nat n) ltac:(lia)) as (L & E & N & I).
  assert (R : forall a, right_number np a <-> (m = 0 \/ len a = m)).
  { intros a. unfold right_number, m. destruct np; [tauto|]. split; auto. }
  exists L. split; [|split; [exact N|]].
  - exists (Z.to_nat n). intros fuel Hf. unfold integer_partitions.
    assert (T : match np with Some m => m >? n | None => false end = false).
    { destruct np as [k|]; [|reflexivity]. cbn in Hnp. destruct (Z.gtb_spec k n); [lia|reflexivity]. }
    rewrite T. assert (B : distinct || match parts with Some _ => true | None => false end = true).
    { destruct Hc as [->|Hc]; [reflexivity|]. destruct parts; [apply orb_true_r|congruence]. }
    rewrite B. fold m. rewrite <- Eps. destruct (backtrack_enum n ps distinct m Hpos Hdec fuel Hf) as (L' & E' & _).
    assert (EL : L' = L); [|rewrite E', EL; reflexivity].
    clear - E E' Hf. assert (MONO : forall f f' ps0 used nu last v, (f <= f')%nat ->
      backtrack n ps distinct m f ps0 used nu last = Ret v -> backtrack n ps distinct m f' ps0 used nu last = Ret v).
    { induction f as [|f IH]; intros f' ps0 used nu last v Hle.
      - destruct f' as [|f']; [auto|]. cbn [backtrack]. destruct (ps0 =? n); [auto|]. destruct (ps0 <? n); [|auto].
        destruct (negb (m =? 0) && (nu >=? m)); [auto|discriminate].
      - destruct f' as [|f']; [lia|]. cbn [backtrack]. destruct (ps0 =? n); [auto|]. destruct (ps0 <? n); [|auto].
        destruct (negb (m =? 0) && (nu >=? m)); [auto|].
        generalize (@nil (list Z)) as acc.
        generalize (zrange (if last =? 0 then 0 else last + (if distinct then 1 else 0)) (Z.of_nat (length ps))) as is.
        induction is as [|i is IHi]; intros acc; [auto|]. cbn [foldM]. destruct (pyget ps i) as [part|e|]; cbn [bind]; [|auto|auto].
        destruct (backtrack n ps distinct m f (ps0 + part) (used ++ [part]) (nu + 1) i) as [l|e|] eqn:El; cbn [bind]; try discriminate.
        rewrite (IH f' _ _ _ _ l ltac:(lia) El). cbn [bind]. apply IHi. }
    apply (MONO _ fuel) in E; [|exact Hf]. congruence.
  - intros a. rewrite I, R. reflexivity.
Qed.

(** Custom parts (distinct positive integers), repetition allowed. *)
Theorem C37_custom_parts (n : Z) (parts : list Z) (np : option Z) :
  NoDup parts -> Forall (fun x => 1 <= x) parts -> not_too_many n np -> exists L,
  yields (integer_partitions n (Some parts) false np) L /\ NoDup L /\
  (forall a, In a L <-> Forall (fun x => In x parts) a /\ StronglySorted (fun x y => y <= x) a /\ zsum a = n /\ right_number np a).
Proof.
  intros Hnd Hpos Hnp. destruct (backtrack_gen n (Some parts) np false _ eq_refl) as (L & H1 & H2 & H3).
  - right. discriminate.
  - rewrite Forall_forall in *. intros x Hx. apply Hpos, rev_sort_In, Hx.
  - apply rev_sort_dec, Hnd.
  - exact Hnp.
  - exists L. split; [exact H1|]. split; [exact H2|]. intros a. rewrite H3.
    assert (A1 : Forall (fun x => In x (rev (zsort parts))) a <-> Forall (fun x => In x parts) a).
    { rewrite !Forall_forall. split; intros H x Hx; apply rev_sort_In, H, Hx. }
    assert (A2 : StronglySorted (may_follow (rev (zsort parts)) false) a <-> StronglySorted (fun x y => y <= x) a).
    { clear. split; (induction 1 as [|x a S IH F]; constructor; [exact IH|]; eapply Forall_impl; [|exact F]; intros y Hy; unfold may_follow in *; lia). }
    rewrite A1, A2. reflexivity.
Qed.

(** Distinct parts out of 1..n: exactly the strictly decreasing lists. *)
Theorem C37_distinct (n : Z) (np : option Z) : 1 <= n -> not_too_many n np -> exists L,
  yields (integer_partitions n None true np) L /\ NoDup L /\
  (forall a, In a L <-> Forall (fun x => 1 <= x) a /\ StronglySorted (fun x y => y < x) a /\ zsum a = n /\ right_number np a).
Proof.
  intros Hn Hnp. destruct (backtrack_gen n None np true _ eq_refl) as (L & H1 & H2 & H3).
  - left. reflexivity.
  - apply Forall_forall. intros x Hx. apply in_rev, zrange_In in Hx. lia.
  - pose proof (zrange_sorted 1 (n + 1)) as S. induction S as [|x s S IH F]; cbn [rev]; [constructor|].
    apply SSorted_app; [exact IH|repeat constructor|]. intros u v Hu [<-|[]]. apply in_rev in Hu. rewrite Forall_forall in F. apply F, Hu.
  - exact Hnp.
  - exists L. split; [exact H1|]. split; [exact H2|]. intros a. rewrite H3.
    assert (Hhd : hd 0 (rev (zrange 1 (n + 1))) = n).
    { rewrite zrange_snoc by lia. rewrite rev_app_distr. reflexivity. }
    assert (IN : forall x, In x (rev (zrange 1 (n + 1))) <-> 1 <= x <= n) by (intros x; rewrite <- in_rev, zrange_In; lia).
    split; intros (A1 & A2 & A3 & A4); (split; [|split; [|split; [exact A3|exact A4]]]).
    + eapply Forall_impl; [|exact A1]. intros x Hx. apply IN in Hx. lia.
    + clear A4 H3 H2 H1. assert (Hs : zsum a <= n) by lia. clear A3. induction A2 as [|x a S IH F]; [constructor|].
      inversion_clear A1 as [|? ? A5 A6]. apply IN in A5. rewrite zsum_cons in Hs. constructor; [apply IH; [exact A6|lia]|].
      rewrite Forall_forall in F |- *. intros y Hy. destruct (F y Hy) as [Hlt|[-> [Hf|Hf]]]; [exact Hlt|discriminate|].
      rewrite Hhd in Hf. exfalso. assert (Q : Forall (fun z => 1 <= z) a) by (eapply Forall_impl; [|exact A6]; intros z Hz; apply IN in Hz; lia).
      pose proof (zsum_ge_len a Q). destruct a; [destruct Hy|]. cbn [length] in *. lia.
    + rewrite Forall_forall in *. intros x Hx. apply IN. split; [apply A1, Hx|].
      pose proof (fun l H => zsum_ge_len l H) as G. apply in_split in Hx. destruct Hx as (u & v & ->).
      rewrite zsum_app, zsum_cons in A3. pose proof (G u). pose proof (G v).
      rewrite !Forall_forall in *. assert (len u <= zsum u) by (apply H; intros; apply A1, in_or_app; auto).
      assert (len v <= zsum v) by (apply H0; intros; apply A1, in_or_app; cbn; auto). lia.
    + clear - A2. induction A2 as [|x a S IH F]; constructor; [exact IH|]. eapply Forall_impl; [|exact F]. intros y Hy. left. exact Hy.
Qed.

(** Distinct custom parts: the lists yielded are exactly the nonincreasing ones in
    which no part other than the largest available one repeats. *)
Theorem C37_distinct_custom (n : Z) (parts : list Z) (np : option Z) (top : Z) :
  NoDup parts -> Forall (fun x => 1 <= x) parts -> not_too_many n np ->
  In top parts -> (forall x, In x parts -> x <= top) -> exists L,
  yields (integer_partitions n (Some parts) true np) L /\ NoDup L /\
  (forall a, In a L <-> Forall (fun x => In x parts) a /\
     StronglySorted (fun x y => y < x \/ (y = x /\ x = top)) a /\ zsum a = n /\ right_number np a).
Proof.
  intros Hnd Hpos Hnp Ht1 Ht2. destruct (backtrack_gen n (Some parts) np true _ eq_refl) as (L & H1 & H2 & H3).
  - left. reflexivity.
  - rewrite Forall_forall in *. intros x Hx. apply Hpos, rev_sort_In, Hx.
  - apply rev_sort_dec, Hnd.
  - exact Hnp.
  - exists L. split; [exact H1|]. split; [exact H2|]. intros a. rewrite H3.
    assert (A1 : Forall (fun x => In x (rev (zsort parts))) a <-> Forall (fun x => In x parts) a).
    { rewrite !Forall_forall. split; intros H x Hx; apply rev_sort_In, H, Hx. }
    assert (Hhd : hd 0 (rev (zsort parts)) = top).
    { pose proof (rev_sort_dec parts Hnd) as S. pose proof (proj2 (rev_sort_In parts top) Ht1) as Hi.
      assert (Hm : forall x, In x (rev (zsort parts)) -> x <= top) by (intros x Hx; apply Ht2, rev_sort_In, Hx).
      destruct (rev (zsort parts)) as [|y l]; [destruct Hi|]. cbn [hd]. destruct Hi as [Hi|Hi]; [exact Hi|].
      inversion_clear S as [|? ? _ F]. rewrite Forall_forall in F. specialize (F top Hi). specialize (Hm y (or_introl eq_refl)). lia. }
    assert (A2 : StronglySorted (may_follow (rev (zsort parts)) true) a <-> StronglySorted (fun x y => y < x \/ (y = x /\ x = top)) a).
    { clear - Hhd. split; (induction 1 as [|x a S IH F]; constructor; [exact IH|]; eapply Forall_impl; [|exact F];
        intros y Hy; unfold may_follow in *; rewrite Hhd in *).
      - destruct Hy as [Hy|[Hy [Hz|Hz]]]; [auto|discriminate|auto].
      - destruct Hy as [Hy|[Hy Hz]]; auto. }
    rewrite A1, A2. reflexivity.
Qed.

(** Where the natural claim fails. *)
Theorem C37_refuted :
  (** distinct parts asked for, a repeated part yielded *)
  yields (integer_partitions 4 (Some [2]) true None) [[2; 2]] /\
  (** more parts than n: the empty list is yielded *)
  (forall n parts d m, n < m -> yields (integer_partitions n parts d (Some m)) [[]]) /\
  (** exactly one part: IndexError after the right answer *)
  (forall n fuel, 1 <= n -> integer_partitions n None false (Some 1) (S fuel) = ([[n]], GRaised IndexError)) /\
  (** the empty partition of 0 *)
  (forall fuel, integer_partitions 0 None false None fuel = ([], GRaised IndexError)).
Proof.
  split; [|split; [|split]].
  - exists 4%nat. intros [|[|[|[|f]]]] Hf; try lia. reflexivity.
  - intros n parts d m H. exists 0%nat. intros fuel _. unfold integer_partitions. destruct (Z.gtb_spec m n); [reflexivity|lia].
  - intros n fuel Hn. unfold integer_partitions. destruct (Z.gtb_spec 1 n); [lia|]. change (algorithm_h n 1 (S fuel) = ([[n]], GRaised IndexError)). unfold algorithm_h. change (pyset (repeat 1 (Z.to_nat 1)) 0 (n - 1 + 1)) with (Ret [n - 1 + 1]). replace (n - 1 + 1) with n by lia. reflexivity.

  - intros fuel. reflexivity.
Qed.

Example partitions_5 : integer_partitions 5 None false None 9 =
  ([[5]; [4; 1]; [3; 2]; [3; 1; 1]; [2; 2; 1]; [2; 1; 1; 1]; [1; 1; 1; 1; 1]], GEnded).
Proof. reflexivity. Qed.
Example partitions_7_3 : integer_partitions 7 None false (Some 3) 9 = ([[5; 1; 1]; [4; 2; 1]; [3; 3; 1]; [3; 2; 2]], GEnded).
Proof. reflexivity. Qed.
Example partitions_coins : integer_partitions 6 (Some [1; 5; 2]) false None 9 = ([[5; 1]; [2; 2; 2]; [2; 2; 1; 1]; [2; 1; 1; 1; 1]; [1; 1; 1; 1; 1; 1]], GEnded).
Proof. reflexivity. Qed.
Example partitions_distinct : integer_partitions 6 None true (Some 2) 9 = ([[5; 1]; [4; 2]], GEnded).
Proof. reflexivity. Qed.

Print Assumptions C37_all_partitions.
Print Assumptions C37_num_parts.
Print Assumptions C37_custom_parts.
Print Assumptions C37_distinct.
Print Assumptions C37_distinct_custom.
Print Assumptions C37_refuted.
