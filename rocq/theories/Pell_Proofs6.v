(** * Completeness of the minimal positive solutions and of the generator; the Farey search *)
From Coq Require Import ZArith List Bool Lia Permutation.
From Verif Require Import Base Py Loop Core_Model Core_Spec Classify_Model Classify_Proofs Classify_Proofs2 Pell_Model Pell_Proofs Pell_Proofs2 Pell_Proofs3 Pell_Proofs4 Pell_Proofs5.
Import ListNotations.
Open Scope Z_scope.

Section complete.
  Context (D N u v : Z).
  Hypothesis (HD : 2 <= D) (ND : nonsquare D) (HN : N <> 0) (NN : nonsquare N) (Fund : least_solution D 1 u v).
  Local Notation e := (u, v).

  Lemma fund_u : 1 <= u. Proof using Fund. apply Fund. Qed.
  Lemma fund_v : 1 <= v. Proof using Fund. apply Fund. Qed.
  Lemma fund_s : sols D 1 u v. Proof using Fund. apply Fund. Qed.

  Lemma unit_small a b : 1 <= b -> 0 < a <= u -> sols D 1 a b -> a = u /\ b = v.
  Proof using Fund HD.
    intros Hb Ha S. destruct Fund as (Hu & Hv & Su & Least). destruct (Least a b ltac:(lia) Hb S) as (L1 & L2). assert (a = u) as -> by lia. split; [reflexivity|]. unfold sols in *.
    assert (D * (b * b - v * v) = 0) by lia. assert (b * b - v * v = 0) by (apply Z.mul_eq_0_r with D; lia). nia.
  Qed.

  (** An ambiguous class: the conjugate of a solution in the fundamental range is one step away. *)
  Lemma ambiguous_step x y : 0 < x -> 0 < y -> sols D N x y -> (N | - x * x - D * y * y) -> (N | 2 * x * y) ->
    (0 < N -> 2 * (x * x) <= (u + 1) * N) -> (N < 0 -> 2 * (x * x) <= (u - 1) * (- N)) ->
    times D (if 0 <? N then (x, - y) else (- x, y)) e = (x, y).
  Proof using All.
    intros Hx Hy S Da Db Bp Bn. set (M := Z.abs N). assert (HM : 0 < M) by (unfold M; lia).
    apply Z.divide_abs_l in Da, Db. fold M in Da, Db. destruct Da as (a' & Ea), Db as (b & Eb). set (a := - a'). assert (Ea2 : x * x + D * y * y = a * M) by (unfold a; lia). clearbody a. clear a' Ea.
    assert (Hb : 1 <= b) by (assert (0 < 2 * x * y) by (repeat apply Z.mul_pos_pos; lia); nia).
    assert (Ha : 0 < a) by (assert (0 < x * x) by (apply Z.mul_pos_pos; lia); assert (0 < D * y * y) by (repeat apply Z.mul_pos_pos; lia); nia).
    assert (Hau : a <= u). { unfold sols in S. assert (a * M <= u * M); [|nia]. unfold M in *. destruct (Z_lt_le_dec 0 N) as [P|P]; [specialize (Bp P); rewrite Z.abs_eq in * by lia; lia|specialize (Bn ltac:(lia)); rewrite Z.abs_neq in * by lia; lia]. }
    assert (Su : sols D 1 a b).
    { unfold sols in *. assert (Z1 : M * M * (a * a - D * b * b) = M * M * 1); [|apply Z.mul_reg_l in Z1; [exact Z1|nia]].
      transitivity ((a * M) * (a * M) - D * (b * M) * (b * M)); [ring|]. rewrite <- Ea2, <- Eb. transitivity ((x * x - D * y * y) * (x * x - D * y * y)); [ring|]. rewrite S. unfold M. rewrite Z.mul_1_r, Z.abs_square. reflexivity. }
    destruct (unit_small a b Hb ltac:(lia) Su) as (-> & ->). unfold sols in S.
    assert (C : forall z w, M * z = M * w -> z = w) by (intros z w Hzw; apply Z.mul_reg_l in Hzw; [exact Hzw|lia]).
    unfold M in *. destruct (Z.ltb_spec 0 N) as [P|P]; unfold times; cbn [fst snd]; f_equal; apply C.
    - rewrite Z.abs_eq in * by lia. transitivity (x * (u * N) - D * y * (v * N)); [ring|]. rewrite <- Ea2, <- Eb, <- S. ring.
    - rewrite Z.abs_eq in * by lia. transitivity (x * (v * N) - y * (u * N)); [ring|]. rewrite <- Ea2, <- Eb, <- S. ring.
    - rewrite Z.abs_neq in * by lia. transitivity (- (x * (u * - N)) + D * y * (v * - N)); [ring|]. rewrite <- Ea2, <- Eb, <- S. ring.
    - rewrite Z.abs_neq in * by lia. transitivity (- (x * (v * - N)) + y * (u * - N)); [ring|]. rewrite <- Ea2, <- Eb, <- S. ring.
  Qed.

  Context (bound : Z).
  Hypothesis (Bp : 0 < N -> forall x, 0 <= x -> (x < bound <-> 2 * (x * x) <= (u + 1) * N)) (Bn : N < 0 -> forall x, 0 <= x -> (x < bound <-> 2 * (x * x) <= (u - 1) * (- N))).
  Context (rs : list Z).
  Hypothesis (Hrs : forall x, In x rs <-> 0 <= x < D /\ (D | x * x - N)).

  Lemma candidates x y : 0 <= x -> sols D N x y -> x < bound -> In x (flat_map (fun r => range_step r bound D) rs).
  Proof using HD Hrs.
    intros Hx S HB. apply in_flat_map. exists (x mod D). pose proof (Z.mod_pos_bound x D ltac:(lia)). pose proof (Z.div_mod x D ltac:(lia)) as DM. split.
    - apply Hrs. split; [lia|]. unfold sols in S. set (q := x / D) in *. set (m := x mod D) in *. clearbody q m. exists (y * y - 2 * m * q - D * q * q). rewrite <- S, DM. ring.
    - apply range_step_In; [lia|]. exists (x / D). split; [apply Z.div_pos; lia|]. split; [lia|exact HB].
  Qed.
  Lemma candidates_inv x : In x (flat_map (fun r => range_step r bound D) rs) -> 0 <= x < bound /\ (D | x * x - N).
  Proof using HD Hrs.
    intros Hx. apply in_flat_map in Hx as (r & Hr & Hx). apply Hrs in Hr as (Hr & c & Ec). apply range_step_In in Hx as (i & Hi & -> & HB); [|lia]. split; [nia|]. exists (c + 2 * r * i + i * i * D). lia.
  Qed.

  Lemma found_ok : exists found, mapM (fundamental_at D N) (flat_map (fun r => range_step r bound D) rs) = Ret found /\
    (forall x y, In (x, y) (concat found) -> sols D N x y /\ 0 < y /\ Z.abs x < bound) /\
    (forall x y, 0 <= x < bound -> 0 < y -> sols D N x y -> In (x, y) (concat found) /\ (In (- x, y) (concat found) \/ ((N | - x * x - D * y * y) /\ (N | 2 * x * y)))).
  Proof using HD HN Hrs.
    destruct (mapM_total (fundamental_at D N) (fun x l => fundamental_at D N x = Ret l) (flat_map (fun r => range_step r bound D) rs)) as (found & E & F); [intros x _; destruct (at_total D N x HD HN) as (l & El); eauto|].
    exists found. split; [exact E|]. split.
    - intros x y Hin. destruct (Forall2_concat_In _ _ _ _ F Hin) as (x0 & z & H1 & H2 & H3). apply candidates_inv in H1 as (H1 & H4). destruct (at_sound D N x0 z ltac:(lia) H4 H2 (x, y) H3) as (H5 & H6 & H7). cbn [fst snd] in *. repeat split; auto. lia.
    - intros x y Hx Hy S. destruct (Forall2_In_concat _ _ _ x F (candidates x y ltac:(lia) S ltac:(lia))) as (z & Hz & Hi). destruct (at_ok D N x y HD HN S Hy) as [E'|(E' & D1 & D2)]; rewrite E' in Hz; injection Hz as <-.
      + split; [|left]; apply Hi; cbn; auto.
      + split; [apply Hi; cbn; auto|right; auto].
  Qed.

  Lemma minimal_complete found : mapM (fundamental_at D N) (flat_map (fun r => range_step r bound D) rs) = Ret found ->
    let l := pair_sort (map (minimal_of D N u v) (concat found)) in
    (forall p q, In (p, q) l -> 0 <= p /\ 1 <= q /\ sols D N p q) /\
    (forall x y, 0 <= x -> 1 <= y -> sols D N x y -> exists p q k, In (p, q) l /\ (x, y) = power D (p, q) e k).
  Proof using All.
    intros Ef l. destruct found_ok as (found' & E & Hf & Hc). assert (found' = found) as -> by congruence. clear E Ef.
    pose proof fund_u as Hu. pose proof fund_v as Hv. pose proof fund_s as Su. pose proof (u2 D u v HD Hu Hv Su) as U2.
    assert (InL : forall a, In a (concat found) -> In (minimal_of D N u v a) l) by (intros a Ha; unfold l; apply pair_sort_In, in_map; exact Ha).
    split.
    - intros p q Hin. unfold l in Hin. apply (proj1 (pair_sort_In _ _)) in Hin. apply in_map_iff in Hin as ((x, y) & Ea & Ha). apply Hf in Ha as (S & Hy & Hb).
      pose proof (minimal_of_sols D N u v (x, y) Su S) as S'. rewrite Ea in S'. cbn [fst snd] in S'. enough (0 <= p /\ 1 <= q) by tauto. clear S'.
      unfold minimal_of in Ea. destruct (Z.ltb_spec x 0) as [Nx|Nx]; [|injection Ea as <- <-; lia]. destruct (Z.ltb_spec 0 N) as [P|P].
      + injection Ea as <- <-. specialize (Bp P (- x) ltac:(lia)). assert (Bx : 2 * (- x * - x) <= (u + 1) * N) by (apply Bp; lia). clear Bp Bn.
        assert (S2 : sols D N (- x) y) by (unfold sols in *; lia). set (z := - x) in *. assert (Hz : 0 < z) by lia. clearbody z. clear Nx Hb S.
        pose proof (pos_x D u v HD Hu Hv Su N z y P S2 Hz) as PX. unfold back in PX. cbn [fst] in PX. split; [lia|].
        assert (Y : (z * v) * (z * v) - (y * u) * (y * u) > 0).
        { unfold sols in *. assert (D * ((z * v) * (z * v) - (y * u) * (y * u)) = N * (u * u) - z * z).
          { transitivity ((z * z) * (D * v * v) - (D * y * y) * (u * u)); [ring|]. replace (D * v * v) with (u * u - 1) by lia. replace (D * y * y) with (z * z - N) by lia. ring. }
          assert ((u + 1) * N <= u * u * N) by (apply Z.mul_le_mono_nonneg_r; nia). assert (0 < z * z) by (apply Z.mul_pos_pos; lia). assert (0 < D * ((z * v) * (z * v) - (y * u) * (y * u))) by lia. nia. }
        assert (0 < z * v) by (apply Z.mul_pos_pos; lia). assert (0 < y * u) by (apply Z.mul_pos_pos; lia). set (s := z * v) in *. set (t := y * u) in *. replace (- y * u) with (- t) by (unfold t; ring). clearbody s t. clear - Y H H0. nia.
      + injection Ea as <- <-. specialize (Bn ltac:(lia) (- x) ltac:(lia)). assert (Bx : 2 * (- x * - x) <= (u - 1) * - N) by (apply Bn; lia). clear Bp Bn.
        assert (S2 : sols D N (- x) y) by (unfold sols in *; lia). set (z := - x) in *. replace x with (- z) by (unfold z; lia). assert (Hz : 0 < z) by lia. clearbody z. clear Nx Hb S x.
        pose proof (pos_y D u v HD Hu Hv Su N z y ltac:(lia) S2 Hy) as PY. unfold back in PY. cbn [snd] in PY. split; [|lia].
        assert (Y : (D * y * v) * (D * y * v) - (z * u) * (z * u) >= 0).
        { unfold sols in *. assert ((D * y * v) * (D * y * v) - (z * u) * (z * u) = (- N) * (u * u - 1) - z * z).
          { transitivity ((D * y * y) * (D * v * v) - (z * z) * (u * u)); [ring|]. replace (D * v * v) with (u * u - 1) by lia. replace (D * y * y) with (z * z - N) by lia. ring. }
          assert ((u - 1) * - N <= (u * u - 1) * - N) by (apply Z.mul_le_mono_nonneg_r; nia). lia. }
        assert (0 < z * u) by (apply Z.mul_pos_pos; lia). assert (0 < D * y * v) by (repeat apply Z.mul_pos_pos; lia). replace (- z * u + y * v * D) with (D * y * v - z * u) by ring. set (s := z * u) in *. set (t := D * y * v) in *. clearbody s t. clear - Y H H0. nia.
    - intros x y Hx Hy S. destruct (Z_lt_le_dec 0 N) as [P|P].
      + assert (Hx' : 0 < x) by (unfold sols in S; assert (x <> 0) by (intros ->; nia); lia).
        destruct (descent_pos D u v HD Hu Hv Su N P (Z.to_nat x) x y ltac:(lia) Hx' ltac:(lia) S) as (x0 & y0 & k & H1 & H2 & H3 & H4).
        assert (HB : x0 < bound) by (apply Bp; auto; lia).
        destruct (Z.lt_trichotomy y0 0) as [Ny|[-> |Py]].
        * assert (S2 : sols D N x0 (- y0)) by (unfold sols in *; lia). destruct (Hc x0 (- y0) ltac:(lia) ltac:(lia) S2) as (I1 & I2).
          destruct k as [|k]; [cbn [power] in H4; injection H4 as -> ->; lia|]. rewrite power_S in H4.
          destruct I2 as [I2|(D1 & D2)].
          -- apply InL in I2. unfold minimal_of in I2. destruct (Z.ltb_spec (- x0) 0); [|lia]. destruct (Z.ltb_spec 0 N); [|lia]. rewrite !Z.opp_involutive in I2. eexists _, _, k. split; [exact I2|]. rewrite H4. reflexivity.
          -- apply InL in I1. unfold minimal_of in I1. destruct (Z.ltb_spec x0 0); [lia|]. exists x0, (- y0), k. split; [exact I1|].
             pose proof (ambiguous_step x0 (- y0) H1 ltac:(lia) S2 D1 D2 ltac:(auto) ltac:(lia)) as A. destruct (Z.ltb_spec 0 N); [|lia]. rewrite Z.opp_involutive in A. rewrite H4, A. reflexivity.
        * exfalso. unfold sols in H3. apply (NN x0). lia.
        * destruct (Hc x0 y0 ltac:(lia) Py H3) as (I1 & _). apply InL in I1. unfold minimal_of in I1. destruct (Z.ltb_spec x0 0); [lia|]. exists x0, y0, k. auto.
      + set (M := - N). assert (HM : 0 < M) by (unfold M; lia). assert (EN : N = - M) by (unfold M; lia).
        destruct (descent_neg D u v HD Hu Hv Su M HM (Z.to_nat y) x y ltac:(lia) Hx ltac:(lia) ltac:(rewrite <- EN; exact S)) as (x0 & y0 & k & H1 & H2 & H3 & H4). rewrite <- EN in H3.
        assert (HB : Z.abs x0 < bound) by (apply Bn; [lia|lia|rewrite Z.abs_square; exact H2]).
        destruct (Z_lt_le_dec x0 0) as [Nx|Px].
        * assert (S2 : sols D N (- x0) y0) by (unfold sols in *; lia). destruct (Hc (- x0) y0 ltac:(lia) H1 S2) as (I1 & I2).
          destruct k as [|k]; [cbn [power] in H4; injection H4 as -> ->; lia|]. rewrite power_S in H4.
          destruct I2 as [I2|(D1 & D2)].
          -- rewrite Z.opp_involutive in I2. apply InL in I2. unfold minimal_of in I2. destruct (Z.ltb_spec x0 0); [|lia]. destruct (Z.ltb_spec 0 N); [lia|]. eexists _, _, k. split; [exact I2|]. rewrite H4. reflexivity.
          -- apply InL in I1. unfold minimal_of in I1. destruct (Z.ltb_spec (- x0) 0); [lia|]. exists (- x0), y0, k. split; [exact I1|].
             pose proof (ambiguous_step (- x0) y0 ltac:(lia) ltac:(lia) S2 D1 D2 ltac:(lia) ltac:(intros _; fold M; replace (- x0 * - x0) with (x0 * x0) by ring; exact H2)) as A. destruct (Z.ltb_spec 0 N); [lia|]. rewrite Z.opp_involutive in A. rewrite H4, A. reflexivity.
        * destruct (Hc x0 y0 ltac:(lia) H1 H3) as (I1 & _). apply InL in I1. unfold minimal_of in I1. destruct (Z.ltb_spec x0 0); [lia|]. exists x0, y0, k. auto.
  Qed.
End complete.

(** N = 1: the powers of the fundamental solution. *)
Lemma units_complete D u v x y : 2 <= D -> least_solution D 1 u v -> 0 <= x -> 1 <= y -> sols D 1 x y -> exists k, (x, y) = power D (u, v) (u, v) k.
Proof.
  intros HD F Hx Hy S. pose proof F as (Hu & Hv & Su & Least). pose proof (u2 D u v HD Hu Hv Su) as U2. assert (Hx' : 0 < x) by (unfold sols in S; assert (x <> 0) by (intros ->; nia); lia).
  destruct (descent_pos D u v HD Hu Hv Su 1 ltac:(lia) (Z.to_nat x) x y ltac:(lia) Hx' ltac:(lia) S) as (x0 & y0 & k & H1 & H2 & H3 & H4).
  destruct (Z.eq_dec y0 0) as [-> |Ny].
  - assert (x0 = 1) as -> by (unfold sols in H3; nia). destruct k as [|k]; [cbn [power] in H4; injection H4 as -> ->; lia|]. rewrite power_S in H4. exists k. rewrite H4. f_equal. unfold times. cbn [fst snd]. f_equal; ring.
  - exfalso. destruct (Least x0 (Z.abs y0) ltac:(lia) ltac:(lia) ltac:(unfold sols in *; rewrite <- Z.mul_assoc, Z.abs_square; lia)) as (L & _). nia.
Qed.
