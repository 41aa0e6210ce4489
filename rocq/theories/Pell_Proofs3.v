(** * The modelled functions on square roots *)
From Coq Require Import ZArith List Bool Lia.
From Verif Require Import Base Py Loop Core_Model Classify_Model Classify_Proofs Classify_Proofs2 Pell_Model Pell_Proofs Pell_Proofs2.
Import ListNotations.
Open Scope Z_scope.

Section link.
  Context (d r : Z).
  Hypothesis (Hr : 1 <= r) (Hd : r * r < d < (r + 1) * (r + 1)).
  Local Notation A := (A d r). Local Notation B := (B d r). Local Notation pq := (pq d r). Local Notation sq := (sq d r). Local Notation cv := (cv d r).

  Definition st (k : nat) : Z * Z := match k with O => (0, 1) | S _ => sq k end.

  Lemma st_step k ts : sqrt_step d r (fst (st k), snd (st k), ts) =
    if pq k =? 2 * r then inr (Ret (ts ++ [pq k])) else inl (fst (st (S k)), snd (st (S k)), ts ++ [pq k]).
  Proof using Hd Hr.
    unfold sqrt_step. destruct k as [|k].
    - cbn [st fst snd]. unfold pydiv. cbn [Z.eqb]. rewrite Z.div_1_r, Z.add_0_l. cbn [pq]. destruct (Z.eqb_spec r (2 * r)); [lia|]. rewrite Z.div_1_r.
      cbn [sq nxt fst snd]. unfold quot. cbn [fst snd]. rewrite !Z.div_1_r. replace (r * 1 - 0) with r by lia. replace ((r + r) * 1 - r) with r by lia. reflexivity.
    - cbn [st]. pose proof (sq_reduced d r Hr Hd (S k)) as R. pose proof (reduced_pos d r _ R). set (s := sq (S k)) in *. assert (Es : pq (S k) = quot r s) by reflexivity.
      assert (En : sq (S (S k)) = nxt d r s) by reflexivity. rewrite Es, En. clearbody s. destruct s as (P, Q). cbn [fst snd] in *.
      unfold pydiv. destruct (Z.eqb_spec Q 0); [lia|]. unfold nxt, quot. cbn [fst snd]. destruct (Z.eqb_spec ((P + r) / Q) (2 * r)); reflexivity.
  Qed.

  Lemma pq_shift a b : (1 <= a)%nat -> (1 <= b)%nat -> sq a = sq b -> forall i n, map pq (seq (a + i) n) = map pq (seq (b + i) n).
  Proof.
    intros Ha Hb E i n. revert i. induction n as [|n IH]; intros i; [reflexivity|]. cbn [seq map]. f_equal.
    - pose proof (sq_shift d r a b i E) as X. destruct (a + i)%nat eqn:E1; [lia|]. destruct (b + i)%nat eqn:E2; [lia|]. unfold Pell_Proofs.pq. rewrite X. reflexivity.
    - rewrite <- !Nat.add_succ_r. apply IH.
  Qed.

  Lemma first_norm n K : A K * A K - d * B K * B K = n -> exists k, (k <= K)%nat /\ A k * A k - d * B k * B k = n /\ forall j, (j < k)%nat -> A j * A j - d * B j * B j <> n.
  Proof.
    assert (X : forall m, (exists k, (k <= m)%nat /\ A k * A k - d * B k * B k = n /\ forall j, (j < k)%nat -> A j * A j - d * B j * B j <> n) \/ forall k, (k <= m)%nat -> A k * A k - d * B k * B k <> n).
    { induction m as [|m [(k & H & E & M)|IH]].
      - destruct (Z.eq_dec (A 0 * A 0 - d * B 0 * B 0) n) as [E|E]; [left; exists O; repeat split; auto; intros; lia|right; intros k Hk; replace k with O by lia; exact E].
      - left. exists k. repeat split; auto.
      - destruct (Z.eq_dec (A (S m) * A (S m) - d * B (S m) * B (S m)) n) as [E|E]; [left; exists (S m); repeat split; auto; intros j Hj; apply IH; lia|].
        right. intros k Hk. destruct (Nat.eq_dec k (S m)) as [-> |]; [exact E|apply IH; lia]. }
    intros E. destruct (X K) as [H|H]; [exact H|exfalso; apply (H K); auto].
  Qed.

  Lemma norm_period k : sq (S k) = (r, 1) -> A k * A k - d * B k * B k = - sign k.
  Proof using Hd Hr. intros E. rewrite (norm d r Hr Hd k). unfold Qn. rewrite E. cbn [snd]. lia. Qed.

  Context (L : nat).
  Hypothesis (HL : (1 <= L)%nat) (EL : sq L = (r, 1)) (ML : forall k, (1 <= k < L)%nat -> sq k <> (r, 1)).

  Lemma loop_ok fuel : Z.of_nat L < 2 ^ Z.of_nat fuel -> run (sqrt_step d r) fuel (0, 1, []) = Ret (map pq (seq 0 (S L))).
  Proof using All.
    intros Hf. apply (run_rule (sqrt_step d r) (fun s => exists k, (k <= L)%nat /\ s = (fst (st k), snd (st k), map pq (seq 0 k))) (fun s => Z.of_nat L - Z.of_nat (length (snd s)))
      (fun o => o = Ret (map pq (seq 0 (S L))))); [|exists O; split; [lia|reflexivity]|cbn [snd length]; lia].
    intros s (k & Hk & ->). rewrite st_step. assert (Ep : map pq (seq 0 k) ++ [pq k] = map pq (seq 0 (S k))) by (rewrite seq_S, map_app; reflexivity). rewrite Ep. cbn [snd]. rewrite !map_length, !seq_length.
    destruct (Nat.eq_dec k L) as [-> |N].
    - assert (pq L = 2 * r) by (destruct L; [lia|]; apply quot_2r; auto). destruct (Z.eqb_spec (pq L) (2 * r)); [reflexivity|contradiction].
    - assert (pq k <> 2 * r) by (destruct k; [cbn [Pell_Proofs.pq]; lia|]; intros E; apply quot_2r in E; auto; apply (ML (S k)); [lia|exact E]).
      destruct (Z.eqb_spec (pq k) (2 * r)); [contradiction|]. split; [exists (S k); split; [lia|reflexivity]|]. cbn [snd]. rewrite !map_length, !seq_length. lia.
  Qed.

  Definition qi : quadratic := {| period_length := Z.of_nat L; pre_period := [r]; fundamental_period := map pq (seq 1 L) |}.

  Lemma initialize_ok fuel : integer_sqrt d = Ret r -> Z.of_nat L < 2 ^ Z.of_nat fuel -> QuadraticIrrational fuel d 0 1 = Ret qi.
  Proof using All.
    intros Es Hf. unfold QuadraticIrrational. cbn [Z.eqb Pos.eqb andb]. unfold initialize_sqrt. rewrite Es. cbn [bind]. destruct (Z.eqb_spec (r * r) d); [lia|]. rewrite (loop_ok fuel Hf). cbn [bind].
    rewrite map_length, seq_length. unfold qi. f_equal. f_equal. lia.
  Qed.

  (** The generator state after k values. *)
  Definition gen (k : nat) (cur : list Z) : Prop := exists n, cur = map pq (seq k n) /\ (1 <= k + n)%nat /\ sq (k + n) = sq 1.

  Lemma gen_start : gen 0 (pre_period qi).
  Proof. exists 1%nat. repeat split; lia. Qed.

  Lemma next_ok k cur : gen k cur -> exists cur', cycle_next (fundamental_period qi) cur = Some (pq k, cur') /\ gen (S k) cur'.
  Proof using All.
    intros (n & -> & H1 & H2). destruct n as [|n].
    - cbn [seq map cycle_next qi fundamental_period]. rewrite Nat.add_0_r in *. destruct L as [|L'] eqn:EqL; [lia|]. cbn [seq map].
      exists (map pq (seq 2 L')). split.
      + f_equal. f_equal. pose proof (pq_shift k 1 H1 ltac:(lia) H2 0 1) as X. rewrite Nat.add_0_r in X. cbn [seq map] in X. injection X as X. symmetry. exact X.
      + exists L'. split; [|split; [lia|]].
        * rewrite <- (Nat.add_1_r k). rewrite (pq_shift k 1 H1 ltac:(lia) H2 1 L'). reflexivity.
        * replace (S k + L')%nat with (k + S L')%nat by lia. rewrite (sq_shift d r k 1 _ H2). rewrite (Nat.add_comm 1). rewrite (sq_shift d r (S L') 0 1); [reflexivity|]. rewrite EL. reflexivity.
    - cbn [seq map cycle_next]. eexists. split; [reflexivity|]. exists n. repeat split; try lia. rewrite <- H2. f_equal. lia.
  Qed.

  Lemma conv_next_ok k cur : gen k cur -> exists cur', conv_next (fundamental_period qi) (cur, cv k) = Some (A k, B k, (cur', cv (S k))) /\ gen (S k) cur'.
  Proof using All.
    intros G. destruct (next_ok k cur G) as (cur' & E & G'). exists cur'. split; [|exact G']. unfold conv_next, Pell_Proofs.A, Pell_Proofs.B. cbn [Pell_Proofs.cv]. destruct (cv k) as (((a0, a1), b0), b1). rewrite E. reflexivity.
  Qed.

  Lemma partial_quotients_ok m : partial_quotients qi m = map pq (seq 0 m).
  Proof using All.
    unfold partial_quotients. generalize gen_start. generalize (pre_period qi). generalize 0%nat. induction m as [|m IH]; intros k cur G; [reflexivity|].
    cbn [cycle_take]. destruct (next_ok k cur G) as (cur' & -> & G'). cbn [seq map]. f_equal. apply IH, G'.
  Qed.

  Lemma convergents_ok m : convergents qi m = map (fun k => (A k, B k)) (seq 0 m).
  Proof using All.
    unfold convergents, conv_start. change (0, 1, 1, 0) with (cv 0). generalize gen_start. generalize (pre_period qi). generalize 0%nat. induction m as [|m IH]; intros k cur G; [reflexivity|].
    cbn [conv_take]. destruct (conv_next_ok k cur G) as (cur' & -> & G'). cbn [seq map]. f_equal. apply IH, G'.
  Qed.

  (** The search for a convergent of norm n finds the first one. *)
  Lemma search_ok n K fuel : A K * A K - d * B K * B K = n -> (forall k, (k < K)%nat -> A k * A k - d * B k * B k <> n) -> Z.of_nat K < 2 ^ Z.of_nat fuel ->
    run (pell_step d n (fundamental_period qi)) fuel (conv_start qi) = Ret (Some (A K, B K)).
  Proof using All.
    intros E Min Hf. refine (run_count _ (fun z s => exists k cur, z = Z.of_nat K - Z.of_nat k /\ (k <= K)%nat /\ s = (cur, cv k) /\ gen k cur) (fun o => o = _) _ fuel (Z.of_nat K) _ _ Hf).
    - intros z s (k & cur & -> & Hk & -> & G). unfold pell_step. destruct (conv_next_ok k cur G) as (cur' & -> & G').
      destruct (Z.eqb_spec (A k * A k - d * B k * B k) n) as [E'|E'].
      + assert (k = K) as -> by (destruct (Nat.eq_dec k K); [assumption|exfalso; apply (Min k); [lia|exact E']]). reflexivity.
      + assert (k <> K) by congruence. exists (Z.of_nat K - Z.of_nat (S k)). split; [lia|]. exists (S k), cur'. repeat split; auto; lia.
    - exists O, (pre_period qi). repeat split; try lia. apply gen_start.
  Qed.



  (** A unit of norm n exists: n = 1, or an odd period. *)
  Lemma unit_exists n : n = 1 \/ (n = -1 /\ Nat.odd L = true) -> exists K, (K < 2 * L)%nat /\ A K * A K - d * B K * B K = n.
  Proof using All.
    intros [-> |(-> & O)].
    - exists (2 * L - 1)%nat. split; [lia|]. rewrite norm_period.
      + unfold sign. replace (2 * L - 1)%nat with (S (2 * (L - 1))) by lia. rewrite Nat.even_succ, <- Nat.negb_even, Nat.even_mul. reflexivity.
      + replace (S (2 * L - 1)) with (2 * L)%nat by lia. apply sq_multiple. exact EL.
    - exists (L - 1)%nat. split; [lia|]. rewrite norm_period; [|replace (S (L - 1)) with L by lia; exact EL].
      unfold sign. destruct L as [|m]; [lia|]. cbn [Nat.sub]. rewrite Nat.sub_0_r. rewrite Nat.odd_succ in O. rewrite O. reflexivity.
  Qed.

  Lemma no_unit x y : Nat.even L = true -> 1 <= y -> x * x - d * y * y <> -1.
  Proof using All.
    intros Ev Hy E. assert (Hx : 1 <= Z.abs x) by (assert (0 < x * x) by nia; lia).
    destruct (unit_is_convergent d r Hr Hd (Z.abs x) y (-1) Hx Hy ltac:(auto)) as (k & Ex & Ey); [rewrite <- Z.abs_square in E; exact E|].
    rewrite <- Z.abs_square, Ex, Ey, (norm d r Hr Hd k) in E. pose proof (Qn_pos d r Hr Hd (S k)) as HQ.
    assert (X : Qn d r (S k) = 1 /\ sign k = 1) by (unfold sign in *; destruct (Nat.even k); lia). destruct X as (X & Sg).
    apply (sq_unit d r Hr Hd) in X. destruct (unit_index d r L (S k) HL EL ML X) as (m & Em).
    assert (Z0 : Nat.even (S k) = true) by (rewrite Em, Nat.even_mul, Ev; apply orb_true_r). unfold sign in Sg. rewrite Nat.even_succ, <- Nat.negb_even in Z0. destruct (Nat.even k); discriminate.
  Qed.
End link.
