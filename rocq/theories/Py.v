(** * More Python vocabulary: comprehensions, extended slices, [bisect] *)
From Coq Require Import ZArith List Lia Bool Sorted.
From Verif Require Import Base Lists.
Import ListNotations.
Open Scope Z_scope.

(** [[x for x in xs if p(x)]] where the test may raise. *)
Fixpoint filterM {A} (p : A -> outcome bool) (xs : list A) : outcome (list A) :=
  match xs with
  | [] => Ret []
  | x :: xs' => do b <- p x; do r <- filterM p xs'; Ret (if b then x :: r else r)
  end.

(** [[f(x) for x in xs]] where the call may raise. *)
Fixpoint mapM {A B} (f : A -> outcome B) (xs : list A) : outcome (list B) :=
  match xs with
  | [] => Ret []
  | x :: xs' => do y <- f x; do r <- mapM f xs'; Ret (y :: r)
  end.

Lemma filterM_ret {A} (p : A -> outcome bool) (q : A -> bool) xs :
  (forall x, In x xs -> p x = Ret (q x)) -> filterM p xs = Ret (filter q xs).
Proof.
  induction xs as [|x xs IH]; intros H; [reflexivity|]. cbn [filterM filter].
  rewrite H by (left; reflexivity). cbn [bind]. rewrite IH by (intros; apply H; right; assumption).
  reflexivity.
Qed.

Lemma mapM_ret {A B} (f : A -> outcome B) (g : A -> B) xs :
  (forall x, In x xs -> f x = Ret (g x)) -> mapM f xs = Ret (map g xs).
Proof.
  induction xs as [|x xs IH]; intros H; [reflexivity|]. cbn [mapM map].
  rewrite H by (left; reflexivity). cbn [bind]. rewrite IH by (intros; apply H; right; assumption).
  reflexivity.
Qed.

(** [len(range(start, m, k))] for [0 <= start], [0 < k]. *)
Definition slice_len (start m k : Z) : Z :=
  if start <? m then (m - start - 1) / k + 1 else 0.

(** The list obtained from [l] by writing [v] at [start, start+k, ...]; [i] is
    the index of the head of [l]. *)
Fixpoint fill_from {A} (i start k : Z) (v : A) (l : list A) : list A :=
  match l with
  | [] => []
  | b :: l' => (if (start <=? i) && ((i - start) mod k =? 0) then v else b)
                 :: fill_from (i + 1) start k v l'
  end.

(** [l[start::k] = [v]*count] (Python: extended slice assignment, [k >= 2]): the
    right-hand side ([count <= 0] gives the empty list) must have exactly the
    length of the slice, otherwise ValueError. *)
Definition slice_fill {A} (start k count : Z) (v : A) (l : list A) : outcome (list A) :=
  if Z.max 0 count =? slice_len start (Z.of_nat (length l)) k
  then Ret (fill_from 0 start k v l)
  else Raise ValueError.

Lemma fill_from_length {A} (v : A) l : forall i s k, length (fill_from i s k v l) = length l.
Proof. induction l; intros; cbn [fill_from length]; [reflexivity|f_equal; auto]. Qed.

Lemma fill_from_nth {A} (v d : A) l : forall i s k j, (j < length l)%nat ->
  nth j (fill_from i s k v l) d =
  if (s <=? i + Z.of_nat j) && ((i + Z.of_nat j - s) mod k =? 0) then v else nth j l d.
Proof.
  induction l as [|b l IH]; intros i s k j Hj; cbn [length] in Hj; [lia|].
  destruct j as [|j]; cbn [fill_from nth].
  - replace (i + Z.of_nat 0) with i by lia. reflexivity.
  - rewrite IH by lia. replace (i + 1 + Z.of_nat j) with (i + Z.of_nat (S j)) by lia. reflexivity.
Qed.

(** The count expression used throughout the sieves is the slice length. *)
Lemma slice_count start m k : 0 < k ->
  Z.max 0 ((m - start) / k + (if 0 <? (m - start) mod k then 1 else 0)) = slice_len start m k.
Proof.
  intros Hk. unfold slice_len.
  destruct (Z.ltb_spec start m) as [H|H].
  - destruct (Z.ltb_spec 0 ((m - start) mod k)) as [H1|H1].
    + assert (E : (m - start - 1) / k = (m - start) / k).
      { symmetry. apply (Z.div_unique_pos _ k _ ((m - start) mod k - 1)).
        - pose proof (Z.mod_pos_bound (m - start) k Hk). lia.
        - pose proof (Z.div_mod (m - start) k ltac:(lia)). lia. }
      rewrite E. assert (0 <= (m - start) / k) by (apply Z.div_pos; lia). lia.
    + pose proof (Z.mod_pos_bound (m - start) k Hk).
      assert (E : (m - start - 1) / k = (m - start) / k - 1).
      { symmetry. apply (Z.div_unique_pos _ k _ (k - 1)); [lia|].
        pose proof (Z.div_mod (m - start) k ltac:(lia)). nia. }
      rewrite E. assert (0 <= (m - start) / k) by (apply Z.div_pos; lia). lia.
  - pose proof (Z.div_mod (m - start) k ltac:(lia)). pose proof (Z.mod_pos_bound (m - start) k Hk).
    destruct (Z.ltb_spec 0 ((m - start) mod k)); nia.
Qed.

Lemma slice_fill_ok {A} start k (v : A) l : 0 < k ->
  let m := Z.of_nat (length l) in
  slice_fill start k ((m - start) / k + (if 0 <? (m - start) mod k then 1 else 0)) v l =
  Ret (fill_from 0 start k v l).
Proof.
  intros Hk m. unfold slice_fill. fold m. rewrite slice_count by exact Hk.
  rewrite Z.eqb_refl. reflexivity.
Qed.

(** [bisect.bisect(l, x)] and [bisect.bisect_left(l, x)] from the standard
    library, on a sorted list: the number of leading elements [<= x] ([< x]). *)
Fixpoint bisect (l : list Z) (x : Z) : nat :=
  match l with
  | [] => 0
  | y :: l' => if y <=? x then S (bisect l' x) else 0
  end.

Fixpoint bisect_left (l : list Z) (x : Z) : nat :=
  match l with
  | [] => 0
  | y :: l' => if y <? x then S (bisect_left l' x) else 0
  end.

Lemma bisect_firstn l x : StronglySorted Z.lt l ->
  firstn (bisect l x) l = filter (fun y => y <=? x) l.
Proof.
  induction l as [|y l IH]; intros H; [reflexivity|].
  inversion H as [|? ? H1 H2]; subst. cbn [bisect filter].
  destruct (Z.leb_spec y x) as [Hle|Hgt].
  - cbn [firstn]. f_equal. apply IH, H1.
  - cbn [firstn]. symmetry. rewrite Forall_forall in H2.
    assert (forall z, In z l -> (z <=? x) = false).
    { intros z Hz. apply Z.leb_gt. specialize (H2 z Hz). lia. }
    clear - H0. induction l as [|z l IH]; [reflexivity|]. cbn [filter].
    rewrite H0 by (left; reflexivity). apply IH. intros; apply H0; right; assumption.
Qed.

Lemma bisect_left_skipn l x : StronglySorted Z.lt l ->
  skipn (bisect_left l x) l = filter (fun y => x <=? y) l.
Proof.
  induction l as [|y l IH]; intros H; [reflexivity|].
  inversion H as [|? ? H1 H2]; subst. cbn [bisect_left filter].
  destruct (Z.ltb_spec y x) as [Hlt|Hge].
  - cbn [skipn]. rewrite (proj2 (Z.leb_gt x y)) by lia. apply IH, H1.
  - cbn [skipn]. rewrite (proj2 (Z.leb_le x y)) by lia. f_equal. symmetry. rewrite Forall_forall in H2.
    assert (H0 : forall z, In z l -> (x <=? z) = true).
    { intros z Hz. apply Z.leb_le. specialize (H2 z Hz). lia. }
    clear - H0. induction l as [|z l IH]; [reflexivity|]. cbn [filter].
    rewrite H0 by (left; reflexivity). f_equal. apply IH. intros; apply H0; right; assumption.
Qed.

Lemma bisect_left_le l x : (bisect_left l x <= length l)%nat.
Proof. induction l as [|y l IH]; cbn; [lia|]. destruct (y <? x); lia. Qed.

Lemma bisect_le l x : (bisect l x <= length l)%nat.
Proof. induction l as [|y l IH]; cbn; [lia|]. destruct (y <=? x); lia. Qed.

(** For membership tests by binary search. *)
Lemma bisect_left_In l x : StronglySorted Z.lt l ->
  (nth_error l (bisect_left l x) = Some x <-> In x l).
Proof.
  induction l as [|y l IH]; intros H.
  - cbn. split; [discriminate|tauto].
  - inversion H as [|? ? H1 H2]; subst. rewrite Forall_forall in H2. cbn [bisect_left].
    destruct (Z.ltb_spec y x) as [Hlt|Hge].
    + cbn [nth_error In]. rewrite IH by exact H1. split; [tauto|]. intros [E|E]; [lia|exact E].
    + cbn [nth_error In]. split.
      * intros E. left. congruence.
      * intros [E|E]; [congruence|]. specialize (H2 x E). lia.
Qed.
