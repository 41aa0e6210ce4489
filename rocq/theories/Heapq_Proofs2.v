(** * The heapq of CPython (Lib/heapq.py) keeps the promise

    This module is not part of the repository: it shows that the hypothesis of C104 is met by the heaps that Python has. *)
From Coq Require Import ZArith List Lia Bool Permutation.
From Verif Require Import Base Heapq_Spec Heapq_Proofs.
Import ListNotations.

(** [l[i] = x] *)
Fixpoint put {A} (l : list A) (i : nat) (x : A) : list A :=
  match l, i with
  | [], _ => []
  | _ :: l, O => x :: l
  | y :: l, S i => y :: put l i x
  end.

Section Code.
  Context {A : Type} (ltb : A -> A -> bool).

  (** [_siftdown(heap, startpos, pos)] with newitem = x *)
  Fixpoint siftdown (fuel : nat) (h : list A) (startpos pos : nat) (x : A) : list A :=
    match fuel with
    | O => put h pos x
    | S f =>
        if Nat.ltb startpos pos then
          let parentpos := Nat.div2 (pos - 1) in
          let parent := nth parentpos h x in
          if ltb x parent then siftdown f (put h pos parent) startpos parentpos x else put h pos x
        else put h pos x
    end.

  (** The loop of [_siftup(heap, pos)]. *)
  Fixpoint sink (fuel : nat) (h : list A) (pos : nat) (x : A) : list A * nat :=
    match fuel with
    | O => (h, pos)
    | S f =>
        let childpos := (2 * pos + 1)%nat in
        if Nat.ltb childpos (length h) then
          let rightpos := (childpos + 1)%nat in
          let childpos := if Nat.ltb rightpos (length h) && negb (ltb (nth childpos h x) (nth rightpos h x)) then rightpos else childpos in
          sink f (put h pos (nth childpos h x)) childpos x
        else (h, pos)
    end.
  Definition siftup (h : list A) (pos : nat) : list A :=
    match nth_error h pos with
    | None => h
    | Some x => let '(h', p) := sink (length h) h pos x in siftdown p h' pos p x
    end.

  Definition heappush (h : list A) (x : A) : list A := siftdown (length h) (h ++ [x]) 0 (length h) x.
  (** [d] stands for the exception that an empty heap raises. *)
  Definition heappop (d : A) (h : list A) : A * list A :=
    match h with
    | [] => (d, [])
    | top :: _ =>
        match removelast h with
        | [] => (top, [])
        | h1 => (top, siftup (put h1 0 (last h d)) 0)
        end
    end.
  Definition py_heapify (l : list A) : list A := fold_left siftup (rev (seq 0 (Nat.div2 (length l)))) l.
  Definition cpython (d : A) : heapq A := Heapq heappush (heappop d) py_heapify.
End Code.

Lemma put_length {A} (l : list A) i x : length (put l i x) = length l.
Proof. revert i. induction l as [|y l IH]; intros [|i]; cbn; congruence. Qed.
Lemma put_same {A} (l : list A) i x d : (i < length l)%nat -> nth i (put l i x) d = x.
Proof. revert i. induction l as [|y l IH]; intros [|i] H; cbn in *; try lia; [reflexivity|apply IH; lia]. Qed.
Lemma put_other {A} (l : list A) i j x d : i <> j -> nth j (put l i x) d = nth j l d.
Proof. revert i j. induction l as [|y l IH]; intros [|i] [|j] H; cbn; try reflexivity; try lia. apply IH. lia. Qed.
Lemma put_perm {A} (l : list A) i x d : (i < length l)%nat -> Permutation (nth i l d :: put l i x) (x :: l).
Proof.
  revert i. induction l as [|y l IH]; intros [|i] H; cbn in *; try lia; [apply perm_swap|]. rewrite perm_swap, (IH i) by lia. apply perm_swap.
Qed.
Lemma put_put {A} (l : list A) i x y : put (put l i x) i y = put l i y.
Proof. revert i. induction l as [|z l IH]; intros [|i]; cbn; try reflexivity. rewrite IH. reflexivity. Qed.
Lemma put_nth {A} (l : list A) i d : put l i (nth i l d) = l.
Proof. revert i. induction l as [|z l IH]; intros [|i]; cbn; try reflexivity. rewrite IH. reflexivity. Qed.
Lemma put_move {A} (l : list A) i j x d : (i < length l)%nat -> (j < length l)%nat -> i <> j -> Permutation (put (put l i (nth j l d)) j x) (put l i x).
Proof.
  intros Hi Hj N. set (a := nth i l d). set (b := nth j l d).
  pose proof (put_perm l i b d Hi) as P1. fold a in P1. pose proof (put_perm (put l i b) j x d) as P2. rewrite put_length, put_other in P2 by exact N. fold b in P2. specialize (P2 Hj).
  pose proof (put_perm l i x d Hi) as P3. fold a in P3. apply (Permutation_cons_inv (a := b)), (Permutation_cons_inv (a := a)).
  rewrite P2, (perm_swap x a), P1, (perm_swap b x), <- P3. rewrite (perm_swap b a). reflexivity.
Qed.

Definition child (i p : nat) : Prop := i = (2 * p + 1)%nat \/ i = (2 * p + 2)%nat.
Lemma parent_ok i : (0 < i)%nat -> child i (Nat.div2 (i - 1)).
Proof. intros H. pose proof (Nat.div2_odd (i - 1)) as E. unfold child. destruct (Nat.odd (i - 1)); cbn [Nat.b2n] in E; lia. Qed.
Inductive desc (k : nat) : nat -> Prop := desc_k : desc k k | desc_c i p : desc k p -> child i p -> desc k i.
Lemma desc_le k i : desc k i -> (k <= i)%nat.
Proof. induction 1 as [|i p D IH C]; unfold child in *; lia. Qed.
Lemma child_unique i p q : child i p -> child i q -> p = q.
Proof. unfold child. lia. Qed.
Lemma desc_parent k i p : desc k i -> i <> k -> child i p -> desc k p.
Proof. intros D N C. destruct D as [|i q D Cq]; [contradiction|]. rewrite (child_unique i p q C Cq). exact D. Qed.
Lemma desc_0 i : desc 0 i.
Proof. induction i as [i IH] using lt_wf_ind. destruct i as [|i]; [constructor|]. pose proof (parent_ok (S i) ltac:(lia)) as C. eapply desc_c; [|exact C]. apply IH. unfold child in C. lia. Qed.

Section Correct.
  Context {A : Type} (ltb : A -> A -> bool) (less : A -> A -> Prop) (d : A).
  Hypothesis D : decides ltb less.
  Hypothesis L : linear less.
  Notation get h i := (nth i h d).

  (** The order holds below k. *)
  Definition above (k : nat) (h : list A) : Prop := forall i p, child i p -> (i < length h)%nat -> (k <= p)%nat -> ~ less (get h i) (get h p).

  Lemma siftdown_ok : forall fuel h k pos x, (pos <= fuel)%nat -> (pos < length h)%nat -> desc k pos ->
    (forall i p, child i p -> (i < length h)%nat -> (k <= p)%nat -> i <> pos -> ~ less (get (put h pos x) i) (get (put h pos x) p)) ->
    (pos <> k -> forall pp i, child pos pp -> child i pos -> (i < length h)%nat -> ~ less (get (put h pos x) i) (get (put h pos x) pp)) ->
    let r := siftdown ltb fuel h k pos x in length r = length h /\ Permutation r (put h pos x) /\ above k r.
  Proof using D L.
    destruct L as (L0 & L1 & L2). induction fuel as [|f IH]; intros h k pos x Hf Hp Dk C1 C2; cbn [siftdown].
    - split; [apply put_length|]. split; [reflexivity|]. assert (pos = 0)%nat by lia. subst pos. intros i p Ci Hi Hk. rewrite put_length in Hi. apply C1; try assumption. unfold child in Ci. lia.
    - destruct (Nat.ltb_spec k pos) as [Lt|Ge].
      + cbv zeta. pose proof (parent_ok pos ltac:(lia)) as Cp. set (pp := Nat.div2 (pos - 1)) in *. clearbody pp. assert (Np : (pp < pos)%nat) by (unfold child in Cp; lia).
        rewrite (nth_indep h x d) by lia. set (b := get h pp). pose proof (desc_parent k pos pp Dk ltac:(lia) Cp) as Dp. pose proof (desc_le _ _ Dp) as Kp.
        assert (Gp : get (put h pos x) pos = x) by (apply put_same, Hp). assert (Gpp : get (put h pos x) pp = b) by (apply put_other; lia).
        destruct (ltb x b) eqn:Lb.
        * apply D in Lb. specialize (IH (put h pos b) k pp x ltac:(lia)). rewrite put_length in IH. specialize (IH ltac:(lia) Dp).
          assert (G : forall j, get (put (put h pos b) pp x) j = if Nat.eqb j pp then x else if Nat.eqb j pos then b else get (put h pos x) j).
          { intros j. destruct (Nat.eqb_spec j pp) as [->|N1]; [apply put_same; rewrite put_length; lia|]. rewrite put_other by lia. destruct (Nat.eqb_spec j pos) as [->|N2]; [apply put_same, Hp|]. rewrite !put_other by lia. reflexivity. }
          destruct IH as (R1 & R2 & R3).
          -- intros i p Ci Hi Hk Ni. rewrite !G. destruct (Nat.eqb_spec i pp); [contradiction|]. destruct (Nat.eqb_spec i pos) as [->|N2].
             ++ rewrite (child_unique pos p pp Ci Cp), Nat.eqb_refl. apply L0, Lb.
             ++ destruct (Nat.eqb_spec p pp) as [->|N3].
                ** apply (L2 _ b); [|apply L0, Lb]. rewrite <- Gpp. apply C1; assumption.
                ** destruct (Nat.eqb_spec p pos) as [->|N4]; [rewrite <- Gpp; apply C2; try assumption; lia|]. apply C1; assumption.
          -- intros Nk qq i Cq Ci Hi. rewrite !G. assert ((qq < pp)%nat) by (unfold child in Cq; lia). assert ((pp < i)%nat) by (unfold child in Ci; lia).
             destruct (Nat.eqb_spec i pp); [lia|]. destruct (Nat.eqb_spec qq pp); [lia|]. destruct (Nat.eqb_spec qq pos); [lia|].
             pose proof (desc_le _ _ (desc_parent k pp qq Dp Nk Cq)) as Kq.
             assert (Lpp : ~ less b (get (put h pos x) qq)) by (rewrite <- Gpp; apply C1; try assumption; lia).
             destruct (Nat.eqb_spec i pos) as [->|N2]; [exact Lpp|]. apply (L2 _ b); [|exact Lpp]. rewrite <- Gpp. apply C1; assumption.
          -- split; [exact R1|]. split; [|exact R3]. rewrite R2. apply put_move; lia.
        * split; [apply put_length|]. split; [reflexivity|]. intros i p Ci Hi Hk. rewrite put_length in Hi. destruct (Nat.eq_dec i pos) as [->|Ni]; [|apply C1; assumption].
          rewrite (child_unique pos p pp Ci Cp), Gp, Gpp. intros K. apply D in K. congruence.
      + split; [apply put_length|]. split; [reflexivity|]. pose proof (desc_le _ _ Dk). assert (pos = k) by lia. subst pos. intros i p Ci Hi Hk. rewrite put_length in Hi. apply C1; try assumption. unfold child in Ci. lia.
  Qed.

  Lemma sink_ok : forall fuel h k pos x, (length h <= fuel + pos)%nat -> (pos < length h)%nat -> desc k pos ->
    (forall i p, child i p -> (i < length h)%nat -> (k <= p)%nat -> i <> pos -> p <> pos -> ~ less (get h i) (get h p)) ->
    (pos <> k -> forall pp i, child pos pp -> child i pos -> (i < length h)%nat -> ~ less (get h i) (get h pp)) ->
    let '(r, q) := sink ltb fuel h pos x in
    length r = length h /\ (q < length h)%nat /\ desc k q /\ Permutation (put r q x) (put h pos x) /\
    (forall i p, child i p -> (i < length h)%nat -> (k <= p)%nat -> i <> q -> p <> q -> ~ less (get r i) (get r p)) /\
    (forall i, child i q -> (length h <= i)%nat).
  Proof using D L.
    destruct L as (L0 & L1 & L2). induction fuel as [|f IH]; intros h k pos x Hf Hp Dk C1 C2; cbn [sink]; [lia|]. cbv zeta.
    destruct (Nat.ltb_spec (2 * pos + 1) (length h)) as [Lt|Ge].
    - set (c := if _ && _ then _ else _).
      assert (Hc : child c pos /\ (c < length h)%nat /\ forall i, child i pos -> (i < length h)%nat -> i <> c -> ~ less (get h i) (get h c)).
      { unfold c. destruct (Nat.ltb_spec (2 * pos + 1 + 1) (length h)) as [Lr|Gr]; cbn [andb].
        - rewrite (nth_indep h x d), (nth_indep h x d) by lia. destruct (ltb (get h (2 * pos + 1)) (get h (2 * pos + 1 + 1))) eqn:E; cbn [negb].
          + split; [left; reflexivity|]. split; [exact Lt|]. intros i Ci Hi Ni. assert (i = (2 * pos + 1 + 1)%nat) as -> by (unfold child in Ci; lia). apply L0, D, E.
          + split; [right; lia|]. split; [exact Lr|]. intros i Ci Hi Ni. assert (i = (2 * pos + 1)%nat) as -> by (unfold child in Ci; lia). intros K. apply D in K. congruence.
        - split; [left; reflexivity|]. split; [exact Lt|]. intros i Ci Hi Ni. unfold child in Ci. lia. }
      clearbody c. destruct Hc as (Cc & Hc & Mc). assert (pos < c)%nat by (unfold child in Cc; lia). rewrite (nth_indep h x d) by lia. set (b := get h c) in *.
      specialize (IH (put h pos b) k c x). rewrite put_length in IH. specialize (IH ltac:(lia) Hc (desc_c k c pos Dk Cc)).
      destruct (sink ltb f (put h pos b) c x) as (r, q). pose proof (desc_le _ _ Dk) as Kp.
      destruct IH as (R1 & R2 & R3 & R4 & R5 & R6).
      + intros i p Ci Hi Hk Ni Np. assert (p < i)%nat by (unfold child in Ci; lia). destruct (Nat.eq_dec i pos) as [->|N1].
        * rewrite put_same by exact Hp. rewrite put_other by lia. assert (pos <> k) by lia. apply C2; assumption.
        * rewrite (put_other h pos i) by lia. destruct (Nat.eq_dec p pos) as [->|N2]; [rewrite put_same by exact Hp; apply Mc; assumption|]. rewrite put_other by lia. apply C1; assumption.
      + intros _ pp i Cp Ci Hi. rewrite (child_unique c pp pos Cp Cc), put_same by exact Hp. assert (c < i)%nat by (unfold child in Ci; lia). rewrite put_other by lia. apply C1; try assumption; lia.
      + split; [exact R1|]. split; [exact R2|]. split; [exact R3|]. split; [|split; assumption]. rewrite R4. apply put_move; lia.
    - split; [reflexivity|]. split; [exact Hp|]. split; [exact Dk|]. split; [reflexivity|]. split; [exact C1|]. intros i Ci. unfold child in Ci. lia.
  Qed.

  Lemma siftup_ok h k : (k < length h)%nat -> above (S k) h -> let r := siftup ltb h k in length r = length h /\ Permutation r h /\ above k r.
  Proof using D L.
    intros Hk Hb. unfold siftup. rewrite (nth_error_nth' h d) by exact Hk. set (x := get h k).
    pose proof (sink_ok (length h) h k k x ltac:(lia) Hk (desc_k k)) as R. destruct (sink ltb (length h) h k x) as (r, q).
    destruct R as (R1 & R2 & R3 & R4 & R5 & R6).
    - intros i p Ci Hi Kp _ Np. apply Hb; try assumption. lia.
    - intros N. contradiction.
    - destruct (siftdown_ok q r k q x) as (S1 & S2 & S3); try lia; try assumption.
      + intros i p Ci Hi Kp Ni. rewrite R1 in Hi. assert (p <> q) by (intros ->; specialize (R6 i Ci); lia). rewrite !put_other by congruence. apply R5; assumption.
      + intros _ pp i _ Ci Hi. specialize (R6 i Ci). lia.
      + split; [congruence|]. split; [|exact S3]. rewrite S2, R4. unfold x. rewrite put_nth. reflexivity.
  Qed.

  Lemma root_least h : above 0 h -> forall i, (i < length h)%nat -> ~ less (get h i) (get h 0).
  Proof using L.
    destruct L as (L0 & L1 & L2). intros H i. induction i as [i IH] using lt_wf_ind. intros Hi. destruct i as [|i]; [intros K; exact (L0 _ _ K K)|].
    pose proof (parent_ok (S i) ltac:(lia)) as C. assert (Nat.div2 (S i - 1) < S i)%nat by (unfold child in C; lia). apply (L2 _ (get h (Nat.div2 (S i - 1)))); [apply H; [exact C|exact Hi|lia]|apply IH; lia].
  Qed.

  Lemma heapify_ok l : length (py_heapify ltb l) = length l /\ Permutation (py_heapify ltb l) l /\ above 0 (py_heapify ltb l).
  Proof using D L.
    unfold py_heapify. set (n := Nat.div2 (length l)). assert (Hn : (2 * n <= length l <= 2 * n + 1)%nat) by (pose proof (Nat.div2_odd (length l)) as E; fold n in E; destruct (Nat.odd (length l)); cbn [Nat.b2n] in E; lia).
    assert (K : forall m h, length h = length l -> (m <= n)%nat -> above m h -> let r := fold_left (siftup ltb) (rev (seq 0 m)) h in length r = length l /\ Permutation r h /\ above 0 r).
    { induction m as [|m IH]; intros h Lh Hm Hb; [split; [exact Lh|split; [reflexivity|exact Hb]]|].
      rewrite seq_S, rev_app_distr. cbn [rev app fold_left Nat.add]. destruct (siftup_ok h m ltac:(lia) Hb) as (S1 & S2 & S3). destruct (IH (siftup ltb h m) ltac:(congruence) ltac:(lia) S3) as (R1 & R2 & R3).
      split; [exact R1|]. split; [rewrite R2; exact S2|exact R3]. }
    apply K; [reflexivity|lia|]. intros i p Ci Hi Hp. unfold child in Ci. lia.
  Qed.

  Lemma heappush_ok h x : above 0 h -> above 0 (heappush ltb h x) /\ Permutation (heappush ltb h x) (x :: h).
  Proof using D L.
    intros H. unfold heappush. assert (E : put (h ++ [x]) (length h) x = h ++ [x]) by (rewrite <- (put_nth (h ++ [x]) (length h) d) at 2; rewrite nth_middle; reflexivity).
    assert (Ln : length (h ++ [x]) = S (length h)) by (rewrite app_length; cbn; lia).
    destruct (siftdown_ok (length h) (h ++ [x]) 0 (length h) x) as (R1 & R2 & R3); try lia; [apply desc_0| | |].
    - rewrite E, Ln. intros i p Ci Hi _ Ni. assert (p < i)%nat by (unfold child in Ci; lia). rewrite !app_nth1 by lia. apply H; [exact Ci|lia|lia].
    - rewrite Ln. intros _ pp i _ Ci Hi. unfold child in Ci. lia.
    - split; [exact R3|]. rewrite R2, E. symmetry. apply Permutation_cons_append.
  Qed.

  Lemma heappop_ok h m r : above 0 h -> h <> [] -> heappop ltb d h = (m, r) -> above 0 r /\ Permutation h (m :: r) /\ forall y, In y r -> ~ less y m.
  Proof using D L.
    intros H N E. unfold heappop in E. destruct h as [|top t]; [contradiction|]. pose proof (app_removelast_last d N) as E0.
    assert (Rt : forall y, In y (top :: t) -> ~ less y top).
    { intros y I. apply (In_nth _ _ d) in I as (i & Hi & <-). exact (root_least (top :: t) H i Hi). }
    destruct (removelast (top :: t)) as [|a h1] eqn:Er.
    - injection E as <- <-. cbn [app] in E0. assert (t = []) as -> by (injection E0 as _ E1; exact E1). split; [intros i p _ Hi; cbn in Hi; lia|]. split; [reflexivity|intros y []].
    - set (z := last (top :: t) d) in *. injection E as <- <-. assert (a = top) as -> by (cbn [app] in E0; congruence).
      assert (Ln : length (top :: t) = S (length (top :: h1))) by (rewrite E0, app_length; cbn [length]; lia).
      destruct (siftup_ok (z :: h1) 0) as (S1 & S2 & S3).
      + cbn. lia.
      + intros i p Ci Hi Hp. assert (p < i)%nat by (unfold child in Ci; lia). cbn [length] in Hi. specialize (H i p Ci ltac:(rewrite Ln; cbn [length]; lia) ltac:(lia)). rewrite E0 in H.
        rewrite !app_nth1 in H by (cbn [length]; lia). destruct i as [|i]; [lia|]. destruct p as [|p]; [lia|]. exact H.
      + change (siftup ltb (put (top :: h1) 0 z) 0) with (siftup ltb (z :: h1) 0). split; [exact S3|].
        assert (P : Permutation (top :: t) (top :: siftup ltb (z :: h1) 0)) by (rewrite S2; rewrite E0; cbn [app]; constructor; symmetry; apply Permutation_cons_append).
        split; [exact P|]. intros y I. apply Rt. eapply Permutation_in; [symmetry; exact P|right; exact I].
  Qed.

  Lemma cpython_ok : heap_ok less (above 0) (cpython ltb d).
  Proof using D L.
    split; [|split; [|split]].
    - intros x i p Ci Hi. cbn in Hi. unfold child in Ci. lia.
    - intros h x H. apply heappush_ok, H.
    - intros h m r H N E. apply (heappop_ok h m r H N E).
    - intros l. destruct (heapify_ok l) as (_ & P & B). split; [exact B|exact P].
  Qed.
End Correct.
