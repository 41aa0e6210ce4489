(** * General quadratic irrationals *)
From Coq Require Import ZArith List Bool Lia.
From Verif Require Import Base Py Loop Core_Model Pell_Model Pell_Proofs Pell_Proofs3.
Import ListNotations.
Open Scope Z_scope.

Section quad.
  Context (d r p q : Z).
  Hypothesis (Hr : 1 <= r) (Hd : r * r < d < (r + 1) * (r + 1)) (Hq : 1 <= q) (Dv : (q | d - p * p)) (Sep : p - (p + r) / q * q <= r).

  Definition semi (s : Z * Z) : Prop := - r <= fst s <= r /\ 1 <= snd s <= r + fst s /\ (snd s | d - fst s * fst s).

  Lemma low_bound' Q Q' P' : r - Q < P' -> - r <= P' -> 1 <= Q -> d - P' * P' = Q' * Q -> Q' < r + P' + 1.
  Proof using Hd Hr.
    intros X B C E. destruct (Z_lt_le_dec Q' (r + P' + 1)) as [L|L]; [exact L|exfalso].
    assert (Y : (r + P' + 1) * (r + 1 - P') <= Q' * Q \/ r + 1 - P' <= 0) by (destruct (Z_lt_le_dec 0 (r + 1 - P')); [left|right; lia]; apply Z.mul_le_mono_nonneg; lia).
    destruct Y as [Y|Y]; [nia|]. assert (r + 1 <= P') by lia. assert ((r + 1) * (r + 1) <= P' * P') by (apply Z.mul_le_mono_nonneg; lia).
    assert (0 <= Q' * Q) by (apply Z.mul_nonneg_nonneg; lia). lia.
  Qed.

  (** One step from a state with positive Q. *)
  Lemma gen_step P Q : 1 <= Q -> (Q | d - P * P) -> let s' := nxt d r (P, Q) in
    fst s' = quot r (P, Q) * Q - P /\ fst s' <= r /\ r - Q < fst s' /\ snd s' * Q = d - fst s' * fst s' /\ (snd s' | d - fst s' * fst s').
  Proof using Hd Hr.
    intros HQ (c & E). unfold nxt, quot. cbn [fst snd]. set (a := (P + r) / Q). pose proof (Z.div_mod (P + r) Q ltac:(lia)) as DM. pose proof (Z.mod_pos_bound (P + r) Q ltac:(lia)) as MB. fold a in DM.
    rewrite (step_eq d P Q a c E), Z.div_mul by lia. repeat split; try lia. exists Q. lia.
  Qed.

  Lemma start_semi : semi (nxt d r (p, q)).
  Proof using All.
    destruct (gen_step p q Hq Dv) as (E1 & L1 & L2 & E2 & D2). cbv zeta in *. unfold quot in E1. cbn [fst snd] in E1. set (s := nxt d r (p, q)) in *. clearbody s. destruct s as (P, Q). cbn [fst snd] in *.
    assert (HP : - r <= P <= r) by lia. assert (P * P <= r * r) by nia. assert (1 <= Q) by nia.
    split; [exact HP|]. split; [|exact D2]. cbn [fst snd]. pose proof (low_bound' q Q P L2 ltac:(lia) Hq (eq_sym E2)). lia.
  Qed.

  Lemma semi_step s : semi s -> reduced d r (nxt d r s) /\ 1 <= quot r s.
  Proof using Hd Hr.
    destruct s as (P, Q). intros (HP & HQ & DQ). cbn [fst snd] in *. destruct (gen_step P Q ltac:(lia) DQ) as (E1 & L1 & L2 & E2 & D2). cbv zeta in *.
    assert (Ha : 1 <= quot r (P, Q)) by (unfold quot; cbn [fst snd]; apply Z.div_le_lower_bound; lia). split; [|exact Ha].
    set (a := quot r (P, Q)) in *. assert (Ea : a = (P + r) / Q) by reflexivity. set (s := nxt d r (P, Q)) in *. clearbody s a. destruct s as (P', Q'). cbn [fst snd] in *.
    assert (P1 : 1 <= P').
    { destruct (Z_le_gt_dec Q r) as [L|L]; [lia|]. assert (a = 1) by (rewrite Ea; symmetry; apply Z.div_unique with (P + r - Q); lia). subst a. lia. }
    assert (QP : Q <= r + P') by nia. pose proof (low_bound' Q Q' P' L2 ltac:(lia) ltac:(lia) (eq_sym E2)). pose proof (high_bound d r Hr Hd Q Q' P' QP ltac:(lia) ltac:(lia) (eq_sym E2)).
    split; [cbn [fst]; lia|]. split; [cbn [fst snd]; lia|exact D2].
  Qed.
  Lemma reduced_semi s : reduced d r s -> semi s.
  Proof using Hd Hr. intros (X & Y & Z). split; [lia|]. split; [lia|exact Z]. Qed.

  Fixpoint tq (k : nat) : Z * Z := match k with O => (p, q) | S k => nxt d r (tq k) end.
  Lemma tq_semi k : semi (tq (S k)).
  Proof using All. induction k as [|k IH]; [apply start_semi|]. apply reduced_semi. apply (semi_step (tq (S k))), IH. Qed.
  Lemma tq_reduced k : reduced d r (tq (S (S k))).
  Proof using All. apply (semi_step (tq (S k))), tq_semi. Qed.
  Definition aq (k : nat) : Z := quot r (tq k).
  Lemma aq_pos k : 1 <= aq (S k).
  Proof using All. apply semi_step, tq_semi. Qed.
  Lemma tq_pos k : 1 <= snd (tq k).
  Proof using All. destruct k; [exact Hq|apply tq_semi]. Qed.
  Lemma tq_div k : (snd (tq k) | d - fst (tq k) * fst (tq k)).
  Proof using All. destruct k; [exact Dv|apply tq_semi]. Qed.

  Lemma tq_shift a b n : tq a = tq b -> tq (a + n) = tq (b + n).
  Proof. intros E. induction n; [rewrite !Nat.add_0_r; exact E|]. rewrite !Nat.add_succ_r. cbn [tq]. f_equal. exact IHn. Qed.

  (** The first repetition. *)
  Lemma tq_repeat : exists j i, (j < i)%nat /\ Z.of_nat i <= 2 * r * r + 3 /\ tq j = tq i /\ forall a b, (a < b < i)%nat -> tq a <> tq b.
  Proof using All.
    assert (X : exists j i, (j < i)%nat /\ Z.of_nat i <= 2 * r * r + 3 /\ tq j = tq i).
    { set (N := S (Z.to_nat (2 * r * r))). assert (HN : Z.of_nat N = 2 * r * r + 1) by (unfold N; rewrite Nat2Z.inj_succ, Z2Nat.id; nia).
      destruct (dup_or (fun k => tq (S (S k))) N) as [(j & i & H & E)|ND]; [exists (S (S j)), (S (S i)); repeat split; auto; lia|].
      exfalso. assert (L : (length (map (fun k => tq (S (S k))) (seq 0 N)) <= length (grid r))%nat) by (apply NoDup_incl_length; [exact ND|]; intros s Hs; apply in_map_iff in Hs as (k & <- & _); apply reduced_grid with d, tq_reduced).
      rewrite map_length, seq_length in L. unfold grid in L. rewrite prod_length in L. rewrite !zrange_length in L.
      rewrite <- Z2Nat.inj_mul in L by lia. replace ((r + 1 - 1) * (2 * r + 1 - 1)) with (2 * r * r) in L by ring. unfold N in L. lia. }
    destruct X as (j & i & H1 & H2 & H3).
    assert (Y : forall n, (n <= i)%nat -> (exists j' i', (j' < i')%nat /\ (i' <= n)%nat /\ tq j' = tq i' /\ forall a b, (a < b < i')%nat -> tq a <> tq b) \/ forall a b, (a < b <= n)%nat -> tq a <> tq b).
    { induction n as [|n IH]; intros Hn; [right; intros; lia|]. destruct (IH ltac:(lia)) as [(j' & i' & A & B & C & D)|N]; [left; exists j', i'; repeat split; auto|].
      destruct (in_dec (fun a b : Z * Z => ltac:(decide equality; apply Z.eq_dec)) (tq (S n)) (map tq (seq 0 (S n)))) as [I|I].
      - apply in_map_iff in I as (a & Ea & Ha). apply in_seq in Ha. left. exists a, (S n). repeat split; auto; try lia. intros x y Hxy. apply N. lia.
      - right. intros a b Hab. destruct (Nat.eq_dec b (S n)) as [-> |]; [|apply N; lia]. intros E. apply I. rewrite <- E. apply in_map. apply in_seq. lia. }
    destruct (Y i (Nat.le_refl i)) as [(j' & i' & A & B & C & D)|N]; [exists j', i'; repeat split; auto; lia|exfalso; apply (N j i); [lia|exact H3]].
  Qed.

  (** The dict after i - 1 entries. *)
  Definition entries (n : nat) : list (Z * Z * Z) := map (fun k => (fst (tq k), snd (tq k), Z.of_nat k)) (seq 0 n).
  Lemma pair_get_entries P Q n : (forall a b, (a < b < n)%nat -> tq a <> tq b) ->
    (forall k, (k < n)%nat -> tq k <> (P, Q)) /\ pair_get (entries n) P Q = None \/ exists k, (k < n)%nat /\ tq k = (P, Q) /\ pair_get (entries n) P Q = Some (Z.of_nat k).
  Proof.
    intros _. unfold entries. assert (G : forall m s, (forall k, (s <= k < s + m)%nat -> tq k <> (P, Q)) /\ pair_get (map (fun k => (fst (tq k), snd (tq k), Z.of_nat k)) (seq s m)) P Q = None \/
       exists k, (s <= k < s + m)%nat /\ tq k = (P, Q) /\ pair_get (map (fun k => (fst (tq k), snd (tq k), Z.of_nat k)) (seq s m)) P Q = Some (Z.of_nat k)).
    { induction m as [|m IH]; intros s; [left; split; [intros; lia|reflexivity]|]. cbn [seq map pair_get].
      destruct (Z.eqb_spec (fst (tq s)) P) as [E1|E1]; [destruct (Z.eqb_spec (snd (tq s)) Q) as [E2|E2]|]; cbn [andb].
      - right. exists s. split; [lia|]. split; [destruct (tq s); cbn [fst snd] in *; congruence|reflexivity].
      - destruct (IH (S s)) as [(A & B)|(k & A & B & C)]; [left; split; [|exact B]; intros k Hk; destruct (Nat.eq_dec k s) as [-> |]; [intros X; rewrite X in E2; apply E2; reflexivity|apply A; lia]|right; exists k; repeat split; auto; lia].
      - destruct (IH (S s)) as [(A & B)|(k & A & B & C)]; [left; split; [|exact B]; intros k Hk; destruct (Nat.eq_dec k s) as [-> |]; [intros X; rewrite X in E1; apply E1; reflexivity|apply A; lia]|right; exists k; repeat split; auto; lia]. }
    destruct (G n O) as [(A & B)|(k & A & B & C)]; [left; split; [intros k Hk; apply A; lia|exact B]|right; exists k; repeat split; auto; lia].
  Qed.

  Context (j i : nat).
  Hypothesis (Hji : (j < i)%nat) (Eji : tq j = tq i) (First : forall a b, (a < b < i)%nat -> tq a <> tq b).

  Lemma quad_loop fuel : Z.of_nat i < 2 ^ Z.of_nat fuel -> run (quad_step d r) fuel (1, p, q, [(p, q, 0)], []) = Ret (map aq (seq 0 i), Z.of_nat j, Z.of_nat i).
  Proof using All.
    intros Hf. refine (run_count (quad_step d r) (fun z s => exists k, z = Z.of_nat i - Z.of_nat k /\ (k < i)%nat /\ s = (Z.of_nat (S k), fst (tq k), snd (tq k), entries (S k), map aq (seq 0 k))) (fun o => o = _) _ fuel (Z.of_nat i) _ _ Hf).
    - intros z s (k & -> & Hk & ->). unfold quad_step. pose proof (tq_pos k) as TP. unfold pydiv. destruct (Z.eqb_spec (snd (tq k)) 0); [lia|].
      assert (EP : (fst (tq k) + r) / snd (tq k) * snd (tq k) - fst (tq k) = fst (tq (S k))) by reflexivity. rewrite EP.
      assert (EQ : (d - fst (tq (S k)) * fst (tq (S k))) / snd (tq k) = snd (tq (S k))) by reflexivity. rewrite EQ.
      assert (EA : map aq (seq 0 k) ++ [(fst (tq k) + r) / snd (tq k)] = map aq (seq 0 (S k))) by (rewrite seq_S, map_app; reflexivity). rewrite EA.
      destruct (pair_get_entries (fst (tq (S k))) (snd (tq (S k))) (S k) ltac:(intros; apply First; lia)) as [(NI & ->)|(k' & Hk' & Ek & ->)].
      + assert (S k <> i). { intros E. subst i. apply (NI j); [lia|]. rewrite Eji. apply surjective_pairing. }
        exists (Z.of_nat i - Z.of_nat (S k)). split; [lia|]. exists (S k). split; [reflexivity|]. split; [lia|]. unfold entries. rewrite (seq_S (S k)), map_app. cbn [map Nat.add]. repeat f_equal. lia.
      + rewrite <- surjective_pairing in Ek. assert (S k = i) as Ei by (destruct (Nat.eq_dec (S k) i); [assumption|exfalso; apply (First k' (S k)); [lia|exact Ek]]).
        assert (k' = j) as ->. { rewrite Ei, <- Eji in Ek. destruct (Nat.lt_trichotomy k' j) as [L|[L|L]]; [exfalso; apply (First k' j); [lia|exact Ek]|exact L|exfalso; apply (First j k'); [lia|congruence]]. }
        rewrite Ei. reflexivity.
    - exists O. split; [lia|]. split; [lia|]. reflexivity.
  Qed.

  Definition qobj : quadratic := {| period_length := Z.of_nat i - Z.of_nat j; pre_period := map aq (seq 0 j); fundamental_period := map aq (seq j (i - j)) |}.

  Lemma quad_ok fuel : integer_sqrt d = Ret r -> (p, q) <> (0, 1) -> Z.of_nat i < 2 ^ Z.of_nat fuel -> QuadraticIrrational fuel d p q = Ret qobj.
  Proof using All.
    intros Es Npq Hf. unfold QuadraticIrrational. destruct (Z.eqb_spec p 0) as [E1|E1]; [destruct (Z.eqb_spec q 1) as [E2|E2]; [exfalso; apply Npq; congruence|]|]; cbn [andb].
    all: unfold initialize_quadratic; rewrite Es; cbn [bind]; destruct (Z.eqb_spec (r * r) d); [lia|]; unfold pymod; (destruct (Z.eqb_spec q 0); [lia|]); cbn [bind]; rewrite (proj2 (Z.mod_divide (d - p * p) q ltac:(lia)) Dv);
      cbn [Z.eqb bind]; rewrite (quad_loop fuel Hf); cbn [bind]; unfold qobj; rewrite !Nat2Z.id; replace i with (j + (i - j))%nat at 2 3 by lia; rewrite seq_app, map_app;
      (rewrite firstn_app, skipn_app, map_length, seq_length, Nat.sub_diag, firstn_all2, skipn_all2 by (rewrite map_length, seq_length; lia)); cbn [firstn skipn app]; rewrite app_nil_r; reflexivity.
  Qed.

  Definition gen2 (k : nat) (cur : list Z) : Prop := exists n, cur = map aq (seq k n) /\ tq (k + n) = tq j.
  Lemma aq_shift a b n : tq a = tq b -> map aq (seq a n) = map aq (seq b n).
  Proof. revert a b. induction n as [|n IH]; intros a b E; [reflexivity|]. cbn [seq map]. f_equal; [unfold aq; rewrite E; reflexivity|]. apply IH. cbn [tq]. rewrite E. reflexivity. Qed.
  Lemma gen2_next k cur : gen2 k cur -> exists cur', cycle_next (fundamental_period qobj) cur = Some (aq k, cur') /\ gen2 (S k) cur'.
  Proof using All.
    intros (n & -> & H). destruct n as [|n].
    - cbn [seq map cycle_next qobj fundamental_period]. rewrite Nat.add_0_r in H. destruct (i - j)%nat as [|m] eqn:Em; [lia|]. cbn [seq map]. eexists. split; [unfold aq at 1 3; rewrite H; reflexivity|].
      exists m. split; [apply aq_shift; cbn [tq]; rewrite H; reflexivity|]. replace (S k + m)%nat with (k + S m)%nat by lia. rewrite (tq_shift k j _ H). rewrite Eji. f_equal. lia.
    - cbn [seq map cycle_next]. eexists. split; [reflexivity|]. exists n. split; [reflexivity|]. rewrite <- H. f_equal. lia.
  Qed.
  Lemma quad_quotients m : partial_quotients qobj m = map aq (seq 0 m).
  Proof using All.
    unfold partial_quotients. assert (G0 : gen2 0 (pre_period qobj)) by (exists j; split; reflexivity). revert G0. generalize (pre_period qobj). generalize 0%nat. induction m as [|m IH]; intros k cur G; [reflexivity|].
    cbn [cycle_take]. destruct (gen2_next k cur G) as (cur' & -> & G'). cbn [seq map]. f_equal. apply IH, G'.
  Qed.
End quad.

(** Norms of the convergents of (p + sqrt d)/q: with z = q x - p y. *)
Section approx.
  Context (d r p q : Z).
  Hypothesis (Hr : 1 <= r) (Hd : r * r < d < (r + 1) * (r + 1)) (Hq : 1 <= q) (Dv : (q | d - p * p)) (Sep : p - (p + r) / q * q <= r).
  Local Notation aq := (aq d r p q). Local Notation tq := (tq d r p q).
  Context (x y : nat -> Z).
  Hypothesis (X0 : x 0%nat = aq 0 /\ y 0%nat = 1) (X1 : x 1%nat = aq 1 * aq 0 + 1 /\ y 1%nat = aq 1) (XR : forall k, x (S (S k)) = aq (S (S k)) * x (S k) + x k /\ y (S (S k)) = aq (S (S k)) * y (S k) + y k).
  Definition zz (k : nat) : Z := q * x k - p * y k.

  Lemma y_pos k : 1 <= y k /\ 1 <= y (S k) /\ Z.of_nat k <= y k /\ Z.of_nat (S k) <= y (S k).
  Proof using All.
    induction k as [|k (I1 & I2 & I3 & I4)].
    - destruct X0 as (_ & ->), X1 as (_ & ->). pose proof (aq_pos d r p q Hr Hd Hq Dv Sep 0). lia.
    - destruct (XR k) as (_ & E). rewrite E. pose proof (aq_pos d r p q Hr Hd Hq Dv Sep (S k)). repeat split; auto; nia.
  Qed.

  Lemma norms k : zz k * zz k - d * y k * y k = - sign k * q * snd (tq (S k)) /\ zz (S k) * zz (S k) - d * y (S k) * y (S k) = sign k * q * snd (tq (S (S k))) /\
    zz (S k) * zz k - d * y (S k) * y k = - sign k * q * fst (tq (S (S k))).
  Proof using All.
    assert (St : forall k, fst (tq (S k)) = aq k * snd (tq k) - fst (tq k) /\ snd (tq (S k)) * snd (tq k) = d - fst (tq (S k)) * fst (tq (S k))).
    { intros n. pose proof (tq_pos d r p q Hr Hd Hq Dv Sep n) as TP. pose proof (tq_div d r p q Hr Hd Hq Dv Sep n) as TD. pose proof (gen_step d r Hr Hd (fst (tq n)) (snd (tq n)) TP TD) as G. cbv zeta in G. rewrite <- surjective_pairing in G. split; apply G. }
    assert (N : forall k, 1 <= snd (tq k)) by (intros n; apply tq_pos; assumption).
    induction k as [|k (I1 & I2 & I3)].
    - change (sign 0) with 1. unfold zz. destruct X0 as (-> & ->), X1 as (-> & ->). destruct (St 0%nat) as (A1 & B1). destruct (St 1%nat) as (A2 & B2). pose proof (N 1%nat) as N1. change (fst (tq 0)) with p in *. change (snd (tq 0)) with q in *. destruct Dv as (c & Ec).
      set (a0 := aq 0) in *. set (a1 := aq 1) in *. set (Q1 := snd (tq 1)) in *. set (P1 := fst (tq 1)) in *. set (Q2 := snd (tq 2)) in *. set (P2 := fst (tq 2)) in *. clearbody a0 a1 Q1 P1 Q2 P2.
      assert (Z0 : q * a0 - p * 1 = P1) by lia. rewrite Z0. assert (Z1 : q * (a1 * a0 + 1) - p * a1 = a1 * P1 + q) by (rewrite A1; ring). rewrite Z1.
      assert (EQ2 : Q2 = q - a1 * a1 * Q1 + 2 * a1 * P1) by (apply (Z.mul_reg_r _ _ Q1); [lia|]; rewrite B2, A2; nia). clear - B1 A2 EQ2. rewrite EQ2, A2. repeat split; [nia| |nia].
      transitivity (a1 * a1 * (P1 * P1 - d) + 2 * a1 * P1 * q + q * q); [ring|]. replace (P1 * P1 - d) with (- (Q1 * q)) by lia. ring.
    - rewrite sign_S. destruct (XR k) as (Ex & Ey). assert (Ez : zz (S (S k)) = aq (S (S k)) * zz (S k) + zz k) by (unfold zz; rewrite Ex, Ey; ring). rewrite Ez, Ey. clear Ex Ey Ez.
      destruct (St (S (S k))) as (A2 & B2). destruct (St (S k)) as (_ & B1). pose proof (N (S (S k))) as N2.
      set (Q1 := snd (tq (S (S k)))) in *. set (P1 := fst (tq (S (S k)))) in *. set (Q2 := snd (tq (S (S (S k))))) in *. set (P2 := fst (tq (S (S (S k))))) in *. set (Q0 := snd (tq (S k))) in *. set (a := aq (S (S k))) in *.
      set (z1 := zz (S k)) in *. set (z0 := zz k) in *. set (y1 := y (S k)) in *. set (y0 := y k) in *. set (e := sign k) in *. clearbody Q1 P1 Q2 P2 Q0 a z1 z0 y1 y0 e.
      clear - I1 I2 I3 A2 B2 B1 N2.
      assert (EQ2 : Q2 = Q0 - a * a * Q1 + 2 * a * P1) by (apply (Z.mul_reg_r _ _ Q1); [lia|]; rewrite B2, A2; nia).
      assert (N1' : (a * z1 + z0) * (a * z1 + z0) - d * (a * y1 + y0) * (a * y1 + y0) = a * a * (z1 * z1 - d * y1 * y1) + 2 * a * (z1 * z0 - d * y1 * y0) + (z0 * z0 - d * y0 * y0)) by ring.
      assert (N2' : (a * z1 + z0) * z1 - d * (a * y1 + y0) * y1 = a * (z1 * z1 - d * y1 * y1) + (z1 * z0 - d * y1 * y0)) by ring.
      rewrite N1', N2', I1, I2, I3, EQ2, A2. repeat split; ring.
  Qed.

  Lemma rec_sign z1 z0 y1 y0 a : 1 <= a -> 0 < y1 -> 0 <= y0 -> 0 < z0 -> z1 * z1 < d * (y1 * y1) -> d * ((a * y1 + y0) * (a * y1 + y0)) < (a * z1 + z0) * (a * z1 + z0) -> 0 < a * z1 + z0.
  Proof using Hr Hd.
    intros Ha Hy1 Hy0 Hz0 L1 L2. destruct (Z_lt_le_dec 0 (a * z1 + z0)) as [G|G]; [exact G|exfalso]. assert (d0 : 0 < d) by nia.
    assert (B1 : (a * z1 + z0) * (a * z1 + z0) <= (a * z1) * (a * z1)) by nia.
    assert (B2 : (a * z1) * (a * z1) <= d * ((a * y1) * (a * y1))). { replace ((a * z1) * (a * z1)) with ((a * a) * (z1 * z1)) by ring. replace (d * ((a * y1) * (a * y1))) with ((a * a) * (d * (y1 * y1))) by ring. apply Z.mul_le_mono_nonneg_l; [nia|lia]. }
    assert (B3 : (a * y1) * (a * y1) <= (a * y1 + y0) * (a * y1 + y0)) by nia. assert (d * ((a * y1) * (a * y1)) <= d * ((a * y1 + y0) * (a * y1 + y0))) by (apply Z.mul_le_mono_nonneg_l; lia). lia.
  Qed.

  Lemma sides k : if Nat.even k then zz k * zz k < d * (y k * y k) else d * (y k * y k) < zz k * zz k /\ 0 < zz k.
  Proof using All.
    assert (Nm : forall k, zz k * zz k - d * (y k * y k) = - sign k * q * snd (tq (S k))) by (intros n; rewrite Z.mul_assoc; apply norms).
    assert (Pp : forall k, 1 <= q * snd (tq (S k))) by (intros n; pose proof (tq_pos d r p q Hr Hd Hq Dv Sep (S n)); nia).
    assert (W : forall k, (if Nat.even k then zz k * zz k < d * (y k * y k) else d * (y k * y k) < zz k * zz k)) by (intros n; specialize (Nm n); specialize (Pp n); unfold sign in Nm; destruct (Nat.even n); lia).
    assert (G : forall k, Nat.even k = false -> 0 < zz k).
    { assert (G2 : forall k, (Nat.even k = false -> 0 < zz k) /\ (Nat.even (S k) = false -> 0 < zz (S k))).
      { clear k; intros k; induction k as [|k (I1 & I2)].
        - split; [intros E0; cbn in E0; discriminate E0|]. intros _. pose proof (W 0%nat) as W0. pose proof (W 1%nat) as W1. cbn [Nat.even] in W0, W1.
          assert (E : zz 1 = aq 1 * zz 0 + q) by (unfold zz; destruct X0 as (-> & ->), X1 as (-> & ->); ring). assert (Ey : y 1%nat = aq 1 * y 0%nat + 0) by (destruct X0 as (_ & ->), X1 as (_ & ->); ring).
          rewrite E, Ey in W1. rewrite E. apply (rec_sign _ _ (y 0%nat) 0); auto; try lia; try (apply aq_pos; assumption); try (destruct X0 as (_ & ->); lia).
        - split; [exact I2|]. intros Ev. rewrite Nat.even_succ_succ in Ev. specialize (I1 Ev). pose proof (W (S k)) as W1. pose proof (W (S (S k))) as W2. rewrite Nat.even_succ, <- Nat.negb_even, Ev in W1. cbn [negb] in W1. rewrite Nat.even_succ_succ, Ev in W2.
          destruct (XR k) as (Ex & Ey). assert (Ez : zz (S (S k)) = aq (S (S k)) * zz (S k) + zz k) by (unfold zz; rewrite Ex, Ey; ring). rewrite Ez, Ey in W2. rewrite Ez. pose proof (y_pos k).
          apply (rec_sign _ _ (y (S k)) (y k)); auto; try lia. apply aq_pos; assumption. }
      intros n. apply G2. }
    specialize (W k). specialize (G k). destruct (Nat.even k); auto.
  Qed.
End approx.
