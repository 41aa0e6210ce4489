(** * Loop rules with a ghost counter *)
From Coq Require Import ZArith List Bool Lia.
From Verif Require Import Base.
Open Scope Z_scope.

Lemma wl_count {S R} (step : S -> S + R) (I : Z -> S -> Prop) (Q : R -> Prop) :
  (forall k s, I k s -> match step s with
                        | inl s' => exists k', 0 <= k' < k /\ I k' s'
                        | inr r => Q r
                        end) ->
  forall n k s, I k s ->
    match wl step n s with
    | inl s' => exists k', 0 <= k' <= k - 2 ^ Z.of_nat n /\ I k' s'
    | inr r => Q r
    end.
Proof.
  intros H n. induction n as [|n IH]; intros k s Hs.
  - cbn [wl]. specialize (H k s Hs). destruct (step s); [|exact H].
    destruct H as (k' & Hk & Hi). exists k'. split; [|exact Hi]. change (2 ^ Z.of_nat 0) with 1. lia.
  - cbn [wl]. pose proof (IH k s Hs) as H1. destruct (wl step n s) as [s'|r]; [|exact H1].
    destruct H1 as (k1 & Hk1 & Hs'). pose proof (IH k1 s' Hs') as H2.
    destruct (wl step n s') as [s''|r]; [|exact H2].
    destruct H2 as (k2 & Hk2 & Hs''). exists k2. split; [|exact Hs''].
    rewrite Nat2Z.inj_succ, Z.pow_succ_r by lia. lia.
Qed.

Lemma run_count {S R} (step : S -> S + outcome R) (I : Z -> S -> Prop) (Q : outcome R -> Prop) :
  (forall k s, I k s -> match step s with
                        | inl s' => exists k', 0 <= k' < k /\ I k' s'
                        | inr r => Q r
                        end) ->
  forall n k s, I k s -> k < 2 ^ Z.of_nat n -> Q (run step n s).
Proof.
  intros H n k s Hs Hk. unfold run. pose proof (wl_count step I Q H n k s Hs) as H1.
  destruct (wl step n s); [|exact H1]. destruct H1 as (k' & Hk' & _). lia.
Qed.

(** More fuel does not change the result of a terminated loop. *)
Lemma wl_more {S R} (step : S -> S + R) n m s r : wl step n s = inr r -> (n <= m)%nat ->
  wl step m s = inr r.
Proof.
  intros H L. induction L as [|m L IH]; [exact H|]. cbn [wl]. rewrite IH. reflexivity.
Qed.

Lemma run_more {S R} (step : S -> S + outcome R) n m s : run step n s <> Diverge -> (n <= m)%nat ->
  run step m s = run step n s.
Proof.
  unfold run. intros H L. destruct (wl step n s) as [s'|r] eqn:E; [congruence|].
  rewrite (wl_more step n m s r E L). reflexivity.
Qed.

Lemma iter_add {A} (f : A -> A) a b x : Nat.iter (a + b) f x = Nat.iter a f (Nat.iter b f x).
Proof. induction a as [|a IH]; [reflexivity|]. cbn. f_equal. exact IH. Qed.
