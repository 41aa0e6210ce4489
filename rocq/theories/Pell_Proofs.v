(** * The continued fraction of sqrt d: reduced states, periodicity, norms of the convergents *)
From Coq Require Import ZArith List Bool Lia.
From Verif Require Import Base.
Import ListNotations.
Open Scope Z_scope.

Section cf.
  Context (d r : Z).
  Hypothesis (Hr : 1 <= r) (Hd : r * r < d < (r + 1) * (r + 1)).

  Definition quot (s : Z * Z) : Z := (fst s + r) / snd s.
  Definition nxt (s : Z * Z) : Z * Z := let P := quot s * snd s - fst s in (P, (d - P * P) / snd s).
  Definition reduced (s : Z * Z) : Prop :=
    1 <= fst s <= r /\ r - fst s < snd s <= r + fst s /\ (snd s | d - fst s * fst s).

  Lemma reduced_pos s : reduced s -> 1 <= snd s.
  Proof. intros (A & B & C). lia. Qed.

  Lemma step_eq P Q q c : d - P * P = c * Q -> d - (q * Q - P) * (q * Q - P) = (c - q * q * Q + 2 * q * P) * Q.
  Proof. intros E. nia. Qed.

  Lemma low_bound Q Q' P' : r - Q < P' -> 0 <= P' -> 1 <= Q -> d - P' * P' = Q' * Q -> Q' < r + P' + 1.
  Proof using Hd Hr.
    intros A B C E. destruct (Z_lt_le_dec Q' (r + P' + 1)) as [L|L]; [exact L|exfalso].
    assert (X : (r + P' + 1) * (r + 1 - P') <= Q' * Q \/ r + 1 - P' <= 0) by (destruct (Z_lt_le_dec 0 (r + 1 - P')); [left|right; lia]; apply Z.mul_le_mono_nonneg; lia).
    destruct X as [X|X]; [nia|]. assert (r + 1 <= P') by lia. assert ((r + 1) * (r + 1) <= P' * P') by (apply Z.mul_le_mono_nonneg; lia).
    assert (0 <= Q' * Q) by (apply Z.mul_nonneg_nonneg; lia). lia.
  Qed.

  Lemma high_bound Q Q' P' : Q <= r + P' -> 1 <= Q -> 1 <= P' <= r -> d - P' * P' = Q' * Q -> r - P' < Q'.
  Proof using Hd Hr.
    intros A B C E. destruct (Z_lt_le_dec (r - P') Q') as [L|L]; [exact L|exfalso].
    assert (Q' * Q <= (r - P') * Q) by (apply Z.mul_le_mono_nonneg_r; lia).
    assert ((r - P') * Q <= (r - P') * (r + P')) by (apply Z.mul_le_mono_nonneg_l; lia). nia.
  Qed.

  (** One step from a reduced state, in all detail. *)
  Lemma nxt_spec s : reduced s -> reduced (nxt s) /\ 1 <= quot s /\ fst (nxt s) = quot s * snd s - fst s /\
    snd (nxt s) * snd s = d - fst (nxt s) * fst (nxt s) /\ r - snd s < fst (nxt s).
  Proof using Hd Hr.
    destruct s as (P, Q). unfold reduced, nxt, quot. cbn [fst snd]. intros (A & B & c & E). assert (HQ : 1 <= Q) by lia.
    set (q := (P + r) / Q). pose proof (Z.div_mod (P + r) Q ltac:(lia)) as DM. pose proof (Z.mod_pos_bound (P + r) Q ltac:(lia)) as MB. fold q in DM.
    assert (Eq : q * Q - P = r - (P + r) mod Q) by lia. set (P' := q * Q - P) in *. clearbody P'.
    assert (q1 : 1 <= q) by (unfold q; apply Z.div_le_lower_bound; lia).
    assert (E' : d - P' * P' = (c - q * q * Q + 2 * q * P) * Q) by (assert (X : P' = q * Q - P) by lia; rewrite X; apply step_eq; exact E).
    assert (P1 : 1 <= P').
    { destruct (Z_le_gt_dec Q r) as [L|L]; [lia|]. assert (q = 1) by (unfold q; symmetry; apply Z.div_unique with (P + r - Q); lia). lia. }
    rewrite E', Z.div_mul by lia. set (Q' := c - q * q * Q + 2 * q * P) in *. clearbody Q'.
    assert (HH : Q <= r + P') by nia.
    pose proof (low_bound Q Q' P' ltac:(lia) ltac:(lia) HQ E'). pose proof (high_bound Q Q' P' HH HQ ltac:(lia) E').
    repeat split; try lia. exists Q. lia.
  Qed.

  Lemma nxt_reduced s : reduced s -> reduced (nxt s).
  Proof using Hd Hr. intros H. apply nxt_spec, H. Qed.

  Lemma nxt_inj s t : reduced s -> reduced t -> nxt s = nxt t -> s = t.
  Proof using Hd Hr.
    intros Hs Ht E. destruct (nxt_spec s Hs) as (Rs & _ & Fs & Qs & Ls). destruct (nxt_spec t Ht) as (_ & _ & Ft & Qt & Lt).
    rewrite <- E in *. pose proof (reduced_pos _ Rs). destruct s as (P, Q), t as (P2, Q2). cbn [fst snd] in *.
    set (P' := fst (nxt (P, Q))) in *. set (Q' := snd (nxt (P, Q))) in *. clearbody P' Q'.
    assert (EQ : Q = Q2) by (apply (Z.mul_reg_l _ _ Q'); lia). subst Q2.
    destruct Hs as (A & B & _), Ht as (A2 & B2 & _). cbn [fst snd] in *.
    assert (X : (quot (P, Q) - quot (P2, Q)) * Q = P - P2) by lia.
    assert (quot (P, Q) - quot (P2, Q) = 0) by (set (k := quot (P, Q) - quot (P2, Q)) in *; clearbody k; nia). f_equal; nia.
  Qed.

  Lemma start_reduced : reduced (r, 1).
  Proof using Hr. unfold reduced. cbn [fst snd]. repeat split; try lia. apply Z.divide_1_l. Qed.

  (** The states: [sq 0 = (r, 1)], whose successor is that of (0, 1). *)
  Fixpoint sq (k : nat) : Z * Z := match k with O => (r, 1) | S k => nxt (sq k) end.
  Lemma sq_reduced k : reduced (sq k).
  Proof using Hd Hr. induction k; [apply start_reduced|apply nxt_reduced, IHk]. Qed.

  Lemma sq_add_inj k n : sq k = sq (k + n) -> sq 0 = sq n.
  Proof using Hd Hr. induction k as [|k IH]; [auto|]. intros E. apply IH. cbn [sq Nat.add] in E. apply nxt_inj in E; [exact E|apply sq_reduced|apply sq_reduced]. Qed.

  Lemma sq_shift a b n : sq a = sq b -> sq (a + n) = sq (b + n).
  Proof. intros E. induction n; [rewrite !Nat.add_0_r; exact E|]. rewrite !Nat.add_succ_r. cbn [sq]. f_equal. exact IHn. Qed.

  Definition grid : list (Z * Z) := list_prod (zrange 1 (r + 1)) (zrange 1 (2 * r + 1)).
  Lemma reduced_grid s : reduced s -> In s grid.
  Proof. intros (A & B & _). destruct s as (P, Q). cbn [fst snd] in *. unfold grid. apply in_prod; apply zrange_In; lia. Qed.

  Lemma dup_or (f : nat -> Z * Z) N : (exists i j, (i < j < N)%nat /\ f i = f j) \/ NoDup (map f (seq 0 N)).
  Proof.
    induction N as [|N [(i & j & H & E)|IH]]; [right; constructor|left; exists i, j; split; [lia|exact E]|].
    assert (D : (exists i, (i < N)%nat /\ f i = f N) \/ ~ In (f N) (map f (seq 0 N))).
    { destruct (in_dec (fun a b : Z * Z => ltac:(decide equality; apply Z.eq_dec)) (f N) (map f (seq 0 N))) as [H|H]; [left|right; exact H].
      apply in_map_iff in H as (i & E & H). apply in_seq in H. exists i. split; [lia|exact E]. }
    destruct D as [(i & H & E)|D]; [left; exists i, N; split; [lia|exact E]|right].
    rewrite seq_S, map_app. cbn [map Nat.add]. apply NoDup_rev in IH. rewrite <- (rev_involutive (map f (seq 0 N) ++ [f N])). apply NoDup_rev. rewrite rev_app_distr. cbn [rev app]. constructor; [rewrite <- in_rev; exact D|exact IH].
  Qed.

  (** The sequence comes back to its start. *)
  Lemma sq_period : exists L, (1 <= L)%nat /\ Z.of_nat L <= 2 * r * r /\ sq L = (r, 1) /\ forall k, (1 <= k < L)%nat -> sq k <> (r, 1).
  Proof using Hd Hr.
    assert (X : exists L, (1 <= L)%nat /\ Z.of_nat L <= 2 * r * r /\ sq L = (r, 1)).
    { set (N := S (Z.to_nat (2 * r * r))). assert (HN : Z.of_nat N = 2 * r * r + 1) by (unfold N; rewrite Nat2Z.inj_succ, Z2Nat.id; nia).
      destruct (dup_or sq N) as [(i & j & H & E)|ND].
      - exists (j - i)%nat. split; [lia|]. split; [lia|]. replace j with (i + (j - i))%nat in E by lia. apply sq_add_inj in E. symmetry. exact E.
      - exfalso. assert (L : (length (map sq (seq 0 N)) <= length grid)%nat) by (apply NoDup_incl_length; [exact ND|]; intros s Hs; apply in_map_iff in Hs as (k & <- & _); apply reduced_grid, sq_reduced).
        rewrite map_length, seq_length in L. unfold grid in L. rewrite prod_length in L. rewrite !zrange_length in L.
        rewrite <- Z2Nat.inj_mul in L by lia. replace ((r + 1 - 1) * (2 * r + 1 - 1)) with (2 * r * r) in L by ring. unfold N in L. lia. }
    destruct X as (L & H1 & H2 & H3).
    assert (Y : forall n, (n <= L)%nat -> (exists M, (1 <= M)%nat /\ (M <= n)%nat /\ sq M = (r, 1) /\ forall k, (1 <= k < M)%nat -> sq k <> (r, 1)) \/ forall k, (1 <= k <= n)%nat -> sq k <> (r, 1)).
    { induction n as [|n IH]; intros Hn; [right; intros k Hk; lia|]. destruct (IH ltac:(lia)) as [(M & A & B & C & D)|N]; [left; exists M; repeat split; auto; lia|].
      assert (dec : {sq (S n) = (r, 1)} + {sq (S n) <> (r, 1)}) by (decide equality; apply Z.eq_dec).
      destruct dec as [E|E]; [left; exists (S n); repeat split; auto; try lia; intros k Hk; apply N; lia|right; intros k Hk; destruct (Nat.eq_dec k (S n)) as [->|]; [exact E|apply N; lia]]. }
    destruct (Y L (Nat.le_refl L)) as [(M & A & B & C & D)|N]; [exists M; repeat split; auto; lia|exfalso; apply (N L); [lia|exact H3]].
  Qed.

  Lemma sq_unit k : snd (sq k) = 1 -> sq k = (r, 1).
  Proof using Hd Hr. intros E. destruct (sq_reduced k) as (A & B & _). destruct (sq k) as (P, Q). cbn [fst snd] in *. f_equal; lia. Qed.

  Lemma quot_2r k : quot (sq k) = 2 * r <-> sq k = (r, 1).
  Proof using Hd Hr.
    split; intros E; [|rewrite E; unfold quot; cbn [fst snd]; rewrite Z.div_1_r; lia].
    apply sq_unit. destruct (sq_reduced k) as (A & B & _). unfold quot in E. destruct (sq k) as (P, Q). cbn [fst snd] in *.
    assert (2 * r * Q <= P + r) by (rewrite <- E, Z.mul_comm; apply Z.mul_div_le; lia). nia.
  Qed.

  (** Partial quotients of sqrt d. *)
  Definition pq (k : nat) : Z := match k with O => r | S _ => quot (sq k) end.
  Lemma pq_pos k : 1 <= pq k.
  Proof using Hd Hr. destruct k; [exact Hr|]. apply nxt_spec, sq_reduced. Qed.

  (** Convergents: (a0, a1, b0, b1) before the k-th turn. *)
  Fixpoint cv (k : nat) : Z * Z * Z * Z :=
    match k with
    | O => (0, 1, 1, 0)
    | S k => let '(a0, a1, b0, b1) := cv k in (a1, pq k * a1 + a0, b1, pq k * b1 + b0)
    end.
  Definition A (k : nat) : Z := snd (fst (fst (cv (S k)))).
  Definition B (k : nat) : Z := snd (cv (S k)).
  Definition sign (k : nat) : Z := if Nat.even k then 1 else -1.
  Lemma sign_S k : sign (S k) = - sign k.
  Proof. unfold sign. rewrite Nat.even_succ, <- Nat.negb_even. destruct (Nat.even k); reflexivity. Qed.
  Lemma sign_sq k : sign k * sign k = 1.
  Proof. unfold sign. destruct (Nat.even k); reflexivity. Qed.

  Definition Qn (k : nat) : Z := snd (sq k).
  Definition Pn (k : nat) : Z := fst (sq k).
  Lemma Qn_pos k : 1 <= Qn k.
  Proof using Hd Hr. apply reduced_pos, sq_reduced. Qed.
  Lemma Pn_pos k : 1 <= Pn k <= r.
  Proof using Hd Hr. apply sq_reduced. Qed.
  Lemma PQ_next k : Qn (S k) * Qn k = d - Pn (S k) * Pn (S k).
  Proof using Hd Hr. apply nxt_spec, sq_reduced. Qed.
  Lemma P_next k : Pn (S k) = quot (sq k) * Qn k - Pn k.
  Proof. reflexivity. Qed.

  (** Norms of consecutive convergents, in terms of the states. *)
  Lemma cv_inv k : let '(a0, a1, b0, b1) := cv (S k) in
    a1 * a1 - d * b1 * b1 = - sign k * Qn (S k) /\ a0 * a0 - d * b0 * b0 = sign k * Qn k /\
    a1 * a0 - d * b1 * b0 = sign k * Pn (S k) /\ a1 * b0 - a0 * b1 = - sign k.
  Proof using Hd Hr.
    induction k as [|k IH].
    - cbn [cv pq]. unfold sign, Qn, Pn. cbn [Nat.even sq nxt fst snd]. unfold quot. cbn [fst snd]. rewrite !Z.div_1_r. repeat split; lia.
    - remember (S k) as k1 eqn:Ek. cbn [cv]. destruct (cv k1) as (((a0, a1), b0), b1). destruct IH as (I1 & I2 & I3 & I4).
      replace (sign k1) with (- sign k) by (rewrite Ek, sign_S; reflexivity).
      pose proof (PQ_next k) as E0. pose proof (PQ_next k1) as E1. pose proof (P_next k1) as E2. pose proof (Qn_pos k1) as HQ. rewrite <- Ek in E0.
      assert (Eq : pq k1 = quot (sq k1)) by (subst k1; reflexivity). rewrite Eq. clear Eq.
      set (q := quot (sq k1)) in *. set (Q2 := Qn (S k1)) in *. set (P2 := Pn (S k1)) in *. set (Q1 := Qn k1) in *. set (P1 := Pn k1) in *. set (Q0 := Qn k) in *. set (e := sign k) in *.
      clearbody q Q2 P2 Q1 P1 Q0 e. clear Hr Hd Ek.
      assert (X : Q2 = Q0 - q * q * Q1 + 2 * q * P1) by (apply (Z.mul_reg_r _ _ Q1); [lia|]; rewrite E1, E2; nia).
      assert (N1 : (q * a1 + a0) * (q * a1 + a0) - d * (q * b1 + b0) * (q * b1 + b0) = q * q * (a1 * a1 - d * b1 * b1) + 2 * q * (a1 * a0 - d * b1 * b0) + (a0 * a0 - d * b0 * b0)) by ring.
      assert (N2 : (q * a1 + a0) * a1 - d * (q * b1 + b0) * b1 = q * (a1 * a1 - d * b1 * b1) + (a1 * a0 - d * b1 * b0)) by ring.
      rewrite N1, N2, I1, I2, I3, X, E2. repeat split; try ring. lia.
  Qed.

  Lemma cv_pair k : cv (S (S k)) = (A k, A (S k), B k, B (S k)).
  Proof. unfold A, B. cbn [cv]. destruct (cv k) as (((a0, a1), b0), b1). reflexivity. Qed.

  Lemma norm k : A k * A k - d * B k * B k = - sign k * Qn (S k).
  Proof using Hd Hr. pose proof (cv_inv k) as H. unfold A, B. destruct (cv (S k)) as (((a0, a1), b0), b1). cbn [fst snd]. apply H. Qed.
  Lemma det k : A (S k) * B k - A k * B (S k) = sign k.
  Proof using Hd Hr. pose proof (cv_inv (S k)) as H. rewrite cv_pair, sign_S in H. lia. Qed.
  Lemma polar k : A (S k) * A k - d * B (S k) * B k = - sign k * Pn (S (S k)).
  Proof using Hd Hr. pose proof (cv_inv (S k)) as H. rewrite cv_pair, sign_S in H. apply H. Qed.

  Lemma A0 : A 0 = r. Proof. unfold A. cbn [cv pq fst snd]. lia. Qed.
  Lemma B0 : B 0 = 1. Proof. unfold B. cbn [cv pq fst snd]. lia. Qed.
  Lemma A1 : A 1 = pq 1 * r + 1. Proof. unfold A. cbn [cv pq fst snd]. lia. Qed.
  Lemma B1 : B 1 = pq 1. Proof. unfold B. cbn [cv pq fst snd]. lia. Qed.
  Lemma A_rec k : A (S (S k)) = pq (S (S k)) * A (S k) + A k.
  Proof. unfold A at 1. remember (S (S k)) as m eqn:E. cbn [cv]. rewrite E at 1. rewrite cv_pair. cbn [fst snd]. reflexivity. Qed.
  Lemma B_rec k : B (S (S k)) = pq (S (S k)) * B (S k) + B k.
  Proof. unfold B at 1. remember (S (S k)) as m eqn:E. cbn [cv]. rewrite E at 1. rewrite cv_pair. cbn [fst snd]. reflexivity. Qed.

  Lemma AB_pos k : 1 <= A k /\ 1 <= B k /\ A k < A (S k) /\ B k <= B (S k).
  Proof using Hd Hr.
    induction k as [|k (IA & IB & LA & LB)].
    - rewrite A0, B0, A1, B1. pose proof (pq_pos 1). nia.
    - rewrite (A_rec k), (B_rec k). pose proof (pq_pos (S (S k))). nia.
  Qed.
  Lemma B_grow k : Z.of_nat k <= B k.
  Proof using Hd Hr.
    induction k as [|k IH]; [rewrite B0; lia|]. destruct k as [|k]; [rewrite B1; pose proof (pq_pos 1); lia|].
    rewrite B_rec. pose proof (pq_pos (S (S k))). pose proof (AB_pos k). pose proof (AB_pos (S k)). nia.
  Qed.
  Lemma A_mono i j : (i <= j)%nat -> A i <= A j /\ B i <= B j.
  Proof using Hd Hr. intros H. induction H as [|j H IH]; [lia|]. pose proof (AB_pos j). lia. Qed.
End cf.
