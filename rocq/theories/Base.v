(** * Common vocabulary of the model: Python outcomes, loops, ranges, lists. *)
From Coq Require Import ZArith List Lia Bool FinFun.
Import ListNotations.
Open Scope Z_scope.

(** Python exception classes raised by the modelled code. *)
Inductive exn :=
| ValueError | IndexError | KeyError | ZeroDivisionError | TypeError
| UnboundLocalError | AttributeError | NameError | RuntimeError | OverflowError
| StopIteration.

(** Result of running a Python function: a value, a raised exception, or
    exhaustion of the fuel of some loop of the model.  A theorem [f x = Ret v]
    states in particular that the call terminates and does not raise. *)
Inductive outcome (A : Type) :=
| Ret (a : A)
| Raise (e : exn)
| Diverge.
Arguments Ret {A} a.
Arguments Raise {A} e.
Arguments Diverge {A}.

Definition bind {A B} (x : outcome A) (f : A -> outcome B) : outcome B :=
  match x with
  | Ret a => f a
  | Raise e => Raise e
  | Diverge => Diverge
  end.

Notation "'do' x <- e ; k" := (bind e (fun x => k))
  (at level 200, x binder, e at level 100, k at level 200, right associativity).
Notation "'do' ' p <- e ; k" := (bind e (fun p => k))
  (at level 200, p strict pattern, e at level 100, k at level 200, right associativity).

(** [for x in xs: body] where the body may raise. *)
Fixpoint foldM {A S} (f : S -> A -> outcome S) (xs : list A) (s : S) : outcome S :=
  match xs with
  | [] => Ret s
  | x :: xs' => bind (f s x) (foldM f xs')
  end.

(** Python's [//] and [%]: floor division, ZeroDivisionError on 0. *)
Definition pydiv (a b : Z) : outcome Z :=
  if b =? 0 then Raise ZeroDivisionError else Ret (a / b).
Definition pymod (a b : Z) : outcome Z :=
  if b =? 0 then Raise ZeroDivisionError else Ret (a mod b).

(** ** While loops

    [step s] performs one iteration: [inl s'] continues, [inr r] leaves the
    loop.  [wl n] performs up to [2^n] iterations, so that fuel is a number of
    bits and the functions remain executable on large inputs. *)
Section While.
  Context {S R : Type} (step : S -> S + R).

  Fixpoint wl (n : nat) (s : S) : S + R :=
    match n with
    | O => step s
    | Datatypes.S n' =>
        match wl n' s with
        | inl s' => wl n' s'
        | inr r => inr r
        end
    end.

  Lemma wl_rule_gen (I : S -> Prop) (m : S -> Z) (Q : R -> Prop) :
    (forall s, I s -> match step s with
                      | inl s' => I s' /\ 0 <= m s' < m s
                      | inr r => Q r
                      end) ->
    forall n s, I s ->
      match wl n s with
      | inl s' => I s' /\ 0 <= m s' <= m s - 2 ^ Z.of_nat n
      | inr r => Q r
      end.
  Proof.
    intros H n. induction n as [|n IH]; intros s Hs.
    - simpl. specialize (H s Hs). destruct (step s); [|auto].
      simpl. split; [tauto|lia].
    - cbn [wl]. pose proof (IH s Hs) as H1. destruct (wl n s) as [s'|r]; auto.
      destruct H1 as [Hs' H1]. pose proof (IH s' Hs') as H2.
      destruct (wl n s') as [s''|r]; auto.
      rewrite Nat2Z.inj_succ, Z.pow_succ_r by lia. intuition lia.
  Qed.

  Lemma wl_rule (I : S -> Prop) (m : S -> Z) (Q : R -> Prop) :
    (forall s, I s -> match step s with
                      | inl s' => I s' /\ 0 <= m s' < m s
                      | inr r => Q r
                      end) ->
    forall n s, I s -> m s < 2 ^ Z.of_nat n ->
      exists r, wl n s = inr r /\ Q r.
  Proof.
    intros H n s Hs Hm. pose proof (wl_rule_gen I m Q H n s Hs) as H1.
    destruct (wl n s) as [s'|r]; [lia|eauto].
  Qed.

  (** Partial correctness: whatever the fuel. *)
  Lemma wl_rule_partial (I : S -> Prop) (Q : R -> Prop) :
    (forall s, I s -> match step s with inl s' => I s' | inr r => Q r end) ->
    forall n s, I s -> match wl n s with inl s' => I s' | inr r => Q r end.
  Proof.
    intros H n. induction n as [|n IH]; intros s Hs; cbn [wl].
    - apply H, Hs.
    - pose proof (IH s Hs) as H1. destruct (wl n s); auto. apply IH, H1.
  Qed.

  (** A loop that always continues never returns. *)
  Lemma wl_never (I : S -> Prop) :
    (forall s, I s -> exists s', step s = inl s' /\ I s') ->
    forall n s, I s -> exists s', wl n s = inl s' /\ I s'.
  Proof.
    intros H n. induction n as [|n IH]; intros s Hs; cbn [wl].
    - apply H, Hs.
    - destruct (IH s Hs) as (s' & -> & Hs'). apply IH, Hs'.
  Qed.
End While.

(** Run a loop whose exit value is an outcome. *)
Definition run {S R} (step : S -> S + outcome R) (n : nat) (s : S) : outcome R :=
  match wl step n s with
  | inl _ => Diverge
  | inr r => r
  end.

Lemma run_rule {S R} (step : S -> S + outcome R) (I : S -> Prop) (m : S -> Z)
      (Q : outcome R -> Prop) :
  (forall s, I s -> match step s with
                    | inl s' => I s' /\ 0 <= m s' < m s
                    | inr r => Q r
                    end) ->
  forall n s, I s -> m s < 2 ^ Z.of_nat n -> Q (run step n s).
Proof.
  intros H n s Hs Hm. unfold run.
  destruct (wl_rule step I m Q H n s Hs Hm) as (r & -> & Hr). exact Hr.
Qed.

Lemma run_partial {S R} (step : S -> S + outcome R) (I : S -> Prop)
      (Q : outcome R -> Prop) :
  (forall s, I s -> match step s with inl s' => I s' | inr r => Q r end) ->
  forall n s, I s -> run step n s = Diverge \/ Q (run step n s).
Proof.
  intros H n s Hs. unfold run.
  pose proof (wl_rule_partial step I Q H n s Hs) as H1.
  destruct (wl step n s); auto.
Qed.

Lemma run_never {S R} (step : S -> S + outcome R) (I : S -> Prop) :
  (forall s, I s -> exists s', step s = inl s' /\ I s') ->
  forall n s, I s -> run step n s = Diverge.
Proof.
  intros H n s Hs. unfold run.
  destruct (wl_never step I H n s Hs) as (s' & -> & _). reflexivity.
Qed.

(** Fuel (number of bits) sufficient for a loop with measure bounded by [m]. *)
Definition bits (m : Z) : nat := Z.to_nat (Z.log2 m + 1).

Lemma bits_spec m : m < 2 ^ Z.of_nat (bits m).
Proof.
  unfold bits. pose proof (Z.log2_nonneg m).
  rewrite Z2Nat.id by lia.
  destruct (Z_le_gt_dec m 0) as [H0|H0].
  - eapply Z.le_lt_trans; [exact H0|]. apply Z.pow_pos_nonneg; lia.
  - rewrite <- Z.add_1_r || idtac. apply Z.log2_spec. lia.
Qed.

(** Python's [int.bit_length]. *)
Definition bit_length (n : Z) : Z :=
  if n =? 0 then 0 else Z.log2 (Z.abs n) + 1.

(** ** Ranges *)

(** [range(a, b)]. *)
Definition zrange (a b : Z) : list Z :=
  map (fun i => a + Z.of_nat i) (seq 0 (Z.to_nat (b - a))).

Lemma zrange_In a b x : In x (zrange a b) <-> a <= x < b.
Proof.
  unfold zrange. rewrite in_map_iff. split.
  - intros (i & <- & Hi%in_seq). lia.
  - intros H. exists (Z.to_nat (x - a)). rewrite in_seq. lia.
Qed.

Lemma zrange_nil a b : b <= a -> zrange a b = [].
Proof. intros H. unfold zrange. replace (Z.to_nat (b - a)) with O by lia. reflexivity. Qed.

Lemma zrange_cons a b : a < b -> zrange a b = a :: zrange (a + 1) b.
Proof.
  intros H. unfold zrange.
  replace (Z.to_nat (b - a)) with (S (Z.to_nat (b - (a + 1)))) by lia.
  cbn [seq map]. f_equal; [lia|].
  rewrite <- seq_shift, map_map. apply map_ext. intros. lia.
Qed.

Lemma zrange_snoc a b : a <= b -> zrange a (b + 1) = zrange a b ++ [b].
Proof.
  intros H. unfold zrange.
  replace (Z.to_nat (b + 1 - a)) with (S (Z.to_nat (b - a))) by lia.
  rewrite seq_S, map_app. cbn [map]. repeat f_equal. lia.
Qed.

Lemma zrange_app a b c : a <= b <= c -> zrange a c = zrange a b ++ zrange b c.
Proof.
  intros H. unfold zrange.
  replace (Z.to_nat (c - a)) with (Z.to_nat (b - a) + Z.to_nat (c - b))%nat by lia.
  rewrite seq_app, map_app. f_equal.
  rewrite <- (map_map (fun i => Nat.add (Z.to_nat (b - a)) i) (fun i => a + Z.of_nat i)) with (l := seq 0 _) || idtac.
  replace (0 + Z.to_nat (b - a))%nat with (Z.to_nat (b - a) + 0)%nat by lia.
  rewrite <- (Nat.add_0_r (Z.to_nat (b - a))) at 1.
  generalize (Z.to_nat (c - b)) as k. intros k.
  assert (E : forall d k s, map (fun i => a + Z.of_nat i) (seq (d + s) k)
                = map (fun i => a + Z.of_nat d + Z.of_nat i) (seq s k)).
  { intros d k0. induction k0; intros s; [reflexivity|].
    cbn [seq map]. f_equal; [lia|]. rewrite <- IHk0. do 2 f_equal. lia. }
  rewrite <- ?plus_n_O.
  specialize (E (Z.to_nat (b - a)) k 0%nat). rewrite Nat.add_0_r in E. rewrite E.
  apply map_ext. intros; lia.
Qed.

Lemma zrange_length a b : length (zrange a b) = Z.to_nat (b - a).
Proof. unfold zrange. rewrite map_length, seq_length. reflexivity. Qed.

Lemma zrange_NoDup a b : NoDup (zrange a b).
Proof.
  unfold zrange. apply Injective_map_NoDup; [|apply seq_NoDup].
  intros x y H. lia.
Qed.

Lemma zrange_nth a b i d : (i < Z.to_nat (b - a))%nat ->
  nth i (zrange a b) d = a + Z.of_nat i.
Proof.
  intros H. unfold zrange.
  rewrite nth_indep with (d' := a + Z.of_nat 0) by (rewrite map_length, seq_length; lia).
  rewrite (map_nth (fun i => a + Z.of_nat i)), seq_nth by lia. lia.
Qed.

(** [range(a, b, s)] for a step [s >= 1]. *)
Definition zrange_step (a b s : Z) : list Z :=
  map (fun i => a + s * Z.of_nat i) (seq 0 (Z.to_nat ((b - a + s - 1) / s))).

Lemma zrange_step_In a b s x : 0 < s ->
  In x (zrange_step a b s) <-> a <= x < b /\ (s | x - a).
Proof.
  intros Hs. unfold zrange_step. rewrite in_map_iff. split.
  - intros (i & <- & Hi%in_seq). split; [|exists (Z.of_nat i); lia].
    assert (Z.of_nat i < (b - a + s - 1) / s) as H by lia.
    assert (s * (Z.of_nat i + 1) <= b - a + s - 1).
    { etransitivity; [|apply (Z.mul_div_le (b - a + s - 1) s Hs)].
      apply Z.mul_le_mono_nonneg_l; lia. }
    lia.
  - intros [H [k Hk]]. exists (Z.to_nat k).
    assert (0 <= k) by nia.
    rewrite in_seq. split; [rewrite Z2Nat.id; lia|].
    assert (k < (b - a + s - 1) / s); [|lia].
    enough (k + 1 <= (b - a + s - 1) / s) by lia.
    apply Z.div_le_lower_bound; nia.
Qed.

Lemma zrange_step_NoDup a b s : 0 < s -> NoDup (zrange_step a b s).
Proof.
  intros H. unfold zrange_step. apply Injective_map_NoDup; [|apply seq_NoDup].
  intros x y E. nia.
Qed.

(** ** Python lists *)

(** [l[i]], negative indices count from the end. *)
Definition pyidx {A} (l : list A) (i : Z) : option nat :=
  let n := Z.of_nat (length l) in
  if (0 <=? i) && (i <? n) then Some (Z.to_nat i)
  else if (- n <=? i) && (i <? 0) then Some (Z.to_nat (i + n))
  else None.

Definition pyget {A} (l : list A) (i : Z) : outcome A :=
  match pyidx l i with
  | Some k => match nth_error l k with Some x => Ret x | None => Raise IndexError end
  | None => Raise IndexError
  end.

Fixpoint upd {A} (l : list A) (k : nat) (x : A) : list A :=
  match l, k with
  | [], _ => []
  | _ :: l', O => x :: l'
  | y :: l', S k' => y :: upd l' k' x
  end.

(** [l[i] = x]. *)
Definition pyset {A} (l : list A) (i : Z) (x : A) : outcome (list A) :=
  match pyidx l i with
  | Some k => Ret (upd l k x)
  | None => Raise IndexError
  end.

Lemma upd_length {A} (l : list A) k x : length (upd l k x) = length l.
Proof. revert k. induction l; intros [|k]; simpl; auto. Qed.

Lemma upd_nth {A} (l : list A) k x d j : (k < length l)%nat ->
  nth j (upd l k x) d = if Nat.eqb j k then x else nth j l d.
Proof.
  revert k j. induction l as [|y l IH]; intros [|k] [|j] H; simpl in *; try lia; auto.
  apply IH. lia.
Qed.

Lemma upd_out {A} (l : list A) k x : (length l <= k)%nat -> upd l k x = l.
Proof.
  revert k. induction l as [|y l IH]; intros [|k] H; simpl in *; try lia; auto.
  f_equal. apply IH. lia.
Qed.

Lemma pyget_nth {A} (l : list A) i d : 0 <= i < Z.of_nat (length l) ->
  pyget l i = Ret (nth (Z.to_nat i) l d).
Proof.
  intros H. unfold pyget, pyidx.
  destruct (Z.leb_spec 0 i); [|lia]. destruct (Z.ltb_spec i (Z.of_nat (length l))); [|lia].
  simpl. rewrite (nth_error_nth' l d) by lia. reflexivity.
Qed.

Lemma pyset_upd {A} (l : list A) i x : 0 <= i < Z.of_nat (length l) ->
  pyset l i x = Ret (upd l (Z.to_nat i) x).
Proof.
  intros H. unfold pyset, pyidx.
  destruct (Z.leb_spec 0 i); [|lia]. destruct (Z.ltb_spec i (Z.of_nat (length l))); [|lia].
  reflexivity.
Qed.

(** Sum and product of a list of integers ([sum], [reduce(mul)]). *)
Definition zsum (l : list Z) : Z := fold_right Z.add 0 l.
Definition zprod (l : list Z) : Z := fold_right Z.mul 1 l.

Lemma zsum_app l l' : zsum (l ++ l') = zsum l + zsum l'.
Proof. unfold zsum. induction l; cbn [app fold_right]; lia. Qed.
Lemma zprod_app l l' : zprod (l ++ l') = zprod l * zprod l'.
Proof. unfold zprod. induction l; cbn [app fold_right]; [lia|]. rewrite IHl. ring. Qed.

Lemma foldM_app {A S} (f : S -> A -> outcome S) xs ys s :
  foldM f (xs ++ ys) s = bind (foldM f xs s) (foldM f ys).
Proof.
  revert s. induction xs as [|x xs IH]; intros s; simpl; [reflexivity|].
  destruct (f s x); simpl; auto.
Qed.

(** Invariant rule for [foldM]. *)
Lemma foldM_inv {A S} (f : S -> A -> outcome S) (I : list A -> S -> Prop) xs s :
  I [] s ->
  (forall pre x post s, xs = pre ++ x :: post -> I pre s ->
     exists s', f s x = Ret s' /\ I (pre ++ [x]) s') ->
  exists s', foldM f xs s = Ret s' /\ I xs s'.
Proof.
  intros H0 Hstep.
  assert (G : forall post pre s, xs = pre ++ post -> I pre s ->
     exists s', foldM f post s = Ret s' /\ I xs s').
  { induction post as [|x post IH]; intros pre t E Ht.
    - rewrite app_nil_r in E. subst. exists t. simpl. auto.
    - destruct (Hstep pre x post t E Ht) as (s' & E' & Hs').
      simpl. rewrite E'. simpl. apply (IH (pre ++ [x])); auto.
      rewrite <- app_assoc. exact E. }
  apply (G xs []); auto.
Qed.

Lemma foldM_ret {A S} (f : S -> A -> outcome S) (g : S -> A -> S) xs s :
  (forall s x, In x xs -> f s x = Ret (g s x)) ->
  foldM f xs s = Ret (fold_left g xs s).
Proof.
  revert s. induction xs as [|x xs IH]; intros s H; simpl; [reflexivity|].
  rewrite H by (left; reflexivity). simpl. apply IH. intros. apply H. right; auto.
Qed.

Lemma zprod_nil : zprod [] = 1. Proof. reflexivity. Qed.
Lemma zprod_cons a l : zprod (a :: l) = a * zprod l. Proof. reflexivity. Qed.
Lemma zsum_nil : zsum [] = 0. Proof. reflexivity. Qed.
Lemma zsum_cons a l : zsum (a :: l) = a + zsum l. Proof. reflexivity. Qed.
