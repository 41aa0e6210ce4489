(** * Python dictionaries with integer keys: association lists in insertion order *)
From Coq Require Import ZArith List Bool Lia.
From Verif Require Import Base.
Import ListNotations.
Open Scope Z_scope.

Section Dict.
  Context {V : Type}.

  (** [d.get(k)]. *)
  Fixpoint dget (d : list (Z * V)) (k : Z) : option V :=
    match d with
    | [] => None
    | (k', v) :: d' => if k' =? k then Some v else dget d' k
    end.

  (** [d[k] = v]: an existing key keeps its place, a new one is appended. *)
  Fixpoint dset (d : list (Z * V)) (k : Z) (v : V) : list (Z * V) :=
    match d with
    | [] => [(k, v)]
    | (k', v') :: d' => if k' =? k then (k', v) :: d' else (k', v') :: dset d' k v
    end.

  (** [del d[k]] (no effect on a missing key). *)
  Fixpoint ddel (d : list (Z * V)) (k : Z) : list (Z * V) :=
    match d with
    | [] => []
    | (k', v') :: d' => if k' =? k then d' else (k', v') :: ddel d' k
    end.

  Definition dkeys (d : list (Z * V)) : list Z := map fst d.

  (** [k in d]. *)
  Definition dmem (d : list (Z * V)) (k : Z) : bool :=
    match dget d k with Some _ => true | None => false end.

  (** [d[k]]. *)
  Definition dgetM (d : list (Z * V)) (k : Z) : outcome V :=
    match dget d k with Some v => Ret v | None => Raise KeyError end.

  Lemma dget_dset d k v k' : dget (dset d k v) k' = if k =? k' then Some v else dget d k'.
  Proof.
    induction d as [|[a w] d IH]; cbn [dset dget].
    - reflexivity.
    - destruct (Z.eqb_spec a k); cbn [dget].
      + subst a. destruct (k =? k'); reflexivity.
      + rewrite IH. destruct (Z.eqb_spec a k'), (Z.eqb_spec k k'); try reflexivity. lia.
  Qed.

  Lemma dget_dset_same d k v : dget (dset d k v) k = Some v.
  Proof. rewrite dget_dset, Z.eqb_refl. reflexivity. Qed.

  Lemma dget_dset_other d k v k' : k <> k' -> dget (dset d k v) k' = dget d k'.
  Proof. intros H. rewrite dget_dset. destruct (Z.eqb_spec k k'); congruence. Qed.

  Lemma dget_Some_In d k v : dget d k = Some v -> In (k, v) d.
  Proof.
    induction d as [|[a w] d IH]; cbn [dget]; [discriminate|].
    destruct (Z.eqb_spec a k); intros H; [left; congruence|right; auto].
  Qed.

  Lemma dget_In d k v : NoDup (dkeys d) -> In (k, v) d -> dget d k = Some v.
  Proof.
    unfold dkeys. induction d as [|[a w] d IH]; cbn [map fst dget]; intros N H; [destruct H|].
    inversion N as [|? ? N1 N2]; subst. destruct H as [H|H].
    - injection H as -> ->. rewrite Z.eqb_refl. reflexivity.
    - destruct (Z.eqb_spec a k); [|auto]. subst. exfalso. apply N1. apply (in_map fst) in H. exact H.
  Qed.

  Lemma dget_None d k : dget d k = None <-> ~ In k (dkeys d).
  Proof.
    unfold dkeys. induction d as [|[a w] d IH]; cbn [map fst dget In]; [tauto|].
    destruct (Z.eqb_spec a k); [|rewrite IH; tauto].
    split; [discriminate|]. intros H. exfalso. tauto.
  Qed.

  Lemma dget_key d k : In k (dkeys d) <-> exists v, dget d k = Some v.
  Proof.
    destruct (dget d k) eqn:E.
    - split; [eauto|]. intros _. apply dget_Some_In, (in_map fst) in E. exact E.
    - apply dget_None in E. split; [tauto|]. intros [v H]. discriminate.
  Qed.

  Lemma dmem_In d k : dmem d k = true <-> In k (dkeys d).
  Proof.
    rewrite dget_key. unfold dmem. destruct (dget d k); split; intros H; eauto.
    - discriminate.
    - destruct H; discriminate.
  Qed.

  Lemma dkeys_dset d k v : dkeys (dset d k v) = if dmem d k then dkeys d else dkeys d ++ [k].
  Proof.
    unfold dkeys, dmem. induction d as [|[a w] d IH]; cbn [dset map fst dget]; [reflexivity|].
    destruct (Z.eqb_spec a k); cbn [map fst]; [subst; reflexivity|]. rewrite IH.
    destruct (dget d k); reflexivity.
  Qed.

  Lemma dkeys_dset_In d k v x : In x (dkeys (dset d k v)) <-> In x (dkeys d) \/ x = k.
  Proof.
    rewrite dkeys_dset. destruct (dmem d k) eqn:E.
    - apply dmem_In in E. split; [tauto|]. intros [H| ->]; auto.
    - rewrite in_app_iff. cbn. firstorder.
  Qed.

  Lemma dset_NoDup d k v : NoDup (dkeys d) -> NoDup (dkeys (dset d k v)).
  Proof.
    intros N. rewrite dkeys_dset. destruct (dmem d k) eqn:E; [exact N|].
    assert (~ In k (dkeys d)) by (rewrite <- dmem_In, E; discriminate).
    apply NoDup_rev in N. rewrite <- (rev_involutive (dkeys d ++ [k])). apply NoDup_rev.
    rewrite rev_app_distr. cbn. constructor; [|exact N]. rewrite <- in_rev. assumption.
  Qed.

  Lemma dset_id d k v : dget d k = Some v -> dset d k v = d.
  Proof.
    induction d as [|[a w] d IH]; cbn [dget dset]; [discriminate|].
    destruct (Z.eqb_spec a k); intros H; [congruence|]. rewrite IH by exact H. reflexivity.
  Qed.

  Lemma dget_ddel d k k' : NoDup (dkeys d) ->
    dget (ddel d k) k' = if k =? k' then None else dget d k'.
  Proof.
    unfold dkeys. induction d as [|[a w] d IH]; cbn [ddel dget map fst]; intros N.
    - destruct (k =? k'); reflexivity.
    - inversion N as [|? ? N1 N2]; subst. destruct (Z.eqb_spec a k).
      + subst. destruct (Z.eqb_spec k k'); [|reflexivity]. subst. apply dget_None. exact N1.
      + cbn [dget]. rewrite (IH N2). destruct (Z.eqb_spec a k'), (Z.eqb_spec k k'); try reflexivity. lia.
  Qed.

  Lemma ddel_sub d k x : In x (dkeys (ddel d k)) -> In x (dkeys d).
  Proof.
    unfold dkeys. induction d as [|[a w] d IH]; cbn [ddel map fst]; [auto|].
    destruct (a =? k); cbn [map fst In]; tauto.
  Qed.

  Lemma ddel_NoDup d k : NoDup (dkeys d) -> NoDup (dkeys (ddel d k)).
  Proof.
    unfold dkeys. induction d as [|[a w] d IH]; cbn [ddel map fst]; intros N; [exact N|].
    inversion N as [|? ? N1 N2]; subst. destruct (a =? k); [exact N2|]. cbn [map fst].
    constructor; [|apply IH, N2]. intros H. apply N1. exact (ddel_sub d k a H).
  Qed.
End Dict.

(** [d[k] += e] on a [defaultdict(int)]. *)
Definition dadd (d : list (Z * Z)) (k e : Z) : list (Z * Z) :=
  dset d k (match dget d k with Some v => v | None => 0 end + e).
