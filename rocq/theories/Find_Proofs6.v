(** * The continued fraction of sqrt(n) and cfrac *)
From Coq Require Import ZArith List Bool Lia Znumtheory Zpow_facts.
From Verif Require Import Base Py Sums Core_Model Core_Spec Core_Proofs Core_Props NT NT_Cong Primality_Model Primes_Spec Primes_Props Sqrt_Proofs2 Find_Model Find_Spec Find_Proofs Find_Proofs3 Find_Proofs4 Find_Proofs5.
Import ListNotations.
Open Scope Z_scope.

(** ** Pairs (A, Q) *)
Definition aq_inv (n g : Z) (s : Z * Z * Z * Z * Z * Z * Z) : Prop :=
  let '(i, A0, A1, Q0, Q1, P0, r0) := s in
  0 <= i /\ P0 = g - r0 /\ P0 * P0 + Q0 * Q1 = n /\ Q1 <> 0 /\ 
  cg n (A1 * A1) ((-1) ^ i * Q1) /\ cg n (A0 * A0) (- (-1) ^ i * Q0) /\ cg n (A0 * A1) (- (-1) ^ i * P0).

Definition aq_pos (g : Z) (s : Z * Z * Z * Z * Z * Z * Z) : Prop :=
  let '(i, A0, A1, Q0, Q1, P0, r0) := s in 0 <= P0 <= g /\ 0 < Q1 <= g + P0 /\ g - P0 < Q0.

Lemma aq_init_inv n g : aq_inv n g (aq_init n g).
Proof.
  unfold aq_inv, aq_init. split; [lia|]. split; [lia|]. split; [lia|]. split; [lia|]. split; [reflexivity|]. split; [|reflexivity]. apply cg_div. exists 1. rewrite Z.pow_0_r. ring.
Qed.

Lemma aq_step_ok n g s : 2 <= n -> (forall k, k * k <> n) -> aq_inv n g s -> exists s', aq_step n g s = Ret s' /\ aq_inv n g s' /\
  (let '(i, _, A1, _, Q1, _, _) := s in let '(i', _, A1', _, _, _, _) := s' in i' = i + 1 /\ 0 <= A1' < n) /\
  (g * g < n -> n < (g + 1) * (g + 1) -> 0 <= g -> aq_pos g s -> aq_pos g s').
Proof.
  intros Hn Sq. destruct s as [[[[[[i A0] A1] Q0] Q1] P0] r0]. intros (Hi & HP & HQ & HQ1 & C1 & C0 & C01). unfold aq_step, pydiv, pymod. destruct (Z.eqb_spec Q1 0); [contradiction|]. cbn [bind]. destruct (Z.eqb_spec n 0); [lia|]. cbn [bind].
  set (q := (g + P0) / Q1). set (P1 := g - (g + P0 - q * Q1)). set (Q2 := Q0 + q * (g + P0 - q * Q1 - r0)). eexists. split; [reflexivity|].
  assert (EP1 : P1 = q * Q1 - P0) by (unfold P1; lia). assert (EQ2 : Q2 = Q0 + q * (P0 - P1)) by (unfold Q2; rewrite EP1; f_equal; f_equal; lia).
  assert (N1 : P1 * P1 + Q1 * Q2 = n) by (rewrite EQ2, EP1, <- HQ; ring).
  assert (Ei : (-1) ^ (i + 1) = - (-1) ^ i) by (rewrite Z.pow_add_r, Z.pow_1_r by lia; lia).
  split; [|split].
  - split; [lia|]. split; [reflexivity|]. split; [exact N1|]. split; [intros X; apply (Sq P1); rewrite X in N1; lia|]. rewrite Ei, Z.opp_involutive. set (s := (-1) ^ i) in *. clearbody s. split; [|split; [exact C1|]].
    + rewrite !cg_mod. replace ((q * A1 + A0) * (q * A1 + A0)) with (q * q * (A1 * A1) + 2 * q * (A0 * A1) + A0 * A0) by ring. rewrite C1, C0, C01. rewrite EQ2, EP1. apply cg_div. exists 0. ring.
    + rewrite cg_mod. replace (A1 * (q * A1 + A0)) with (q * (A1 * A1) + A0 * A1) by ring. rewrite C1, C01, EP1. apply cg_div. exists 0. ring.
  - split; [reflexivity|]. apply Z.mod_pos_bound. lia.
  - intros G1 G2 G0 (HP0 & HQ1' & HQ0). pose proof (Z.div_mod (g + P0) Q1 HQ1) as DM. pose proof (Z.mod_pos_bound (g + P0) Q1 ltac:(lia)) as MB. fold q in DM.
    assert (Hq : 1 <= q) by (unfold q; apply Z.div_le_lower_bound; lia). set (r1 := (g + P0) mod Q1) in *. clearbody q r1.
    assert (Er : P1 = g - r1) by (unfold P1; lia). assert (Hr : r1 <= g + P0 - Q1) by nia.
    assert (H1 : 0 <= P1 <= g) by lia. split; [exact H1|]. assert (HP2 : P1 * P1 < n) by (clear - H1 G1; nia).
    assert (HQ2 : 0 < Q2). { clear - N1 HP2 HQ1'. apply (Z.mul_pos_cancel_l Q1); lia. } split; [|lia]. split; [exact HQ2|].
    destruct (Z_lt_le_dec (g + P1) Q2) as [L|L]; [|exact L]. exfalso. assert (Q1 >= g + 1 - P1) by lia. assert (Q2 >= g + 1 + P1) by lia. assert (H2 : (g + 1 - P1) * (g + 1 + P1) <= Q1 * Q2) by (apply Z.mul_le_mono_nonneg; lia). clear - H2 N1 G2. lia.
Qed.

Lemma aq_take_ok n g m : 2 <= n -> (forall k, k * k <> n) -> forall s i0, aq_inv n g s -> (let '(i, _, A1, _, _, _, _) := s in i = i0 /\ 0 <= A1 < n) ->
  exists l, aq_take n g m s = Ret l /\ length l = m /\
  forall k, (k < m)%nat -> let '(i, A, Q) := nth k l (0, 0, 0) in i = i0 + Z.of_nat k /\ 0 <= A < n /\ cg n (A * A) ((-1) ^ i * Q) /\ Q <> 0 /\
    (g * g < n -> n < (g + 1) * (g + 1) -> 0 <= g -> aq_pos g s -> 0 < Q <= 2 * g).
Proof.
  intros Hn Sq. induction m as [|m IH]; intros s i0 Hs H1; [exists []; split; [reflexivity|]; split; [reflexivity|]; intros; lia|]. destruct (aq_step_ok n g s Hn Sq Hs) as (s' & E & Hs' & Hi & Hp). cbn [aq_take].
  destruct s as [[[[[[i A0] A1] Q0] Q1] P0] r0]. rewrite E. cbn [bind]. destruct H1 as [-> HA].
  destruct (IH s' (i0 + 1) Hs') as (l & El & Ll & Hl). { destruct s' as [[[[[[i' A0'] A1'] Q0'] Q1'] P0'] r0']. exact Hi. }
  rewrite El. cbn [bind]. eexists. split; [reflexivity|]. split; [cbn [length]; congruence|]. intros [|k] Hk; cbn [nth].
  - split; [lia|]. split; [exact HA|]. destruct Hs as (_ & _ & _ & H0 & H & _). split; [exact H|]. split; [exact H0|]. intros _ _ _ (P & Q & _). lia.
  - specialize (Hl k ltac:(lia)). destruct (nth k l (0, 0, 0)) as [[j A] Q]. destruct Hl as (-> & L2 & L3 & L4 & L5). split; [lia|]. split; [exact L2|]. split; [exact L3|]. split; [exact L4|]. intros G1 G2 G0 GP. apply L5; try assumption. apply Hp; assumption.
Qed.

Lemma aq_pairs_ok n m : 2 <= n -> (forall k, k * k <> n) -> exists l, cfrac_aq_pairs n m = Ret l /\ length l = m /\
  forall k, (k < m)%nat -> let '(i, A, Q) := nth k l (0, 0, 0) in i = Z.of_nat k + 1 /\ 0 <= A < n /\ cg n (A * A) ((-1) ^ i * Q) /\ Q <> 0 /\
    (n < 2 ^ 52 \/ 2 ^ 60 < n -> 0 < Q <= 2 * Z.sqrt n).
Proof.
  intros Hn Sq. unfold cfrac_aq_pairs. destruct (C04_integer_sqrt_near n ltac:(lia)) as (g & Eg & Hg). rewrite Eg. cbn [bind].
  destruct (aq_step_ok n g (aq_init n g) Hn Sq (aq_init_inv n g)) as (s & E & Hs & Hi & Hp). rewrite E. cbn [bind].
  destruct (aq_take_ok n g m Hn Sq s 1 Hs) as (l & El & Ll & Hl). { destruct s as [[[[[[i' A0'] A1'] Q0'] Q1'] P0'] r0']. exact Hi. }
  exists l. split; [exact El|]. split; [exact Ll|]. intros k Hk. specialize (Hl k Hk). destruct (nth k l (0, 0, 0)) as [[i A] Q]. destruct Hl as (L1 & L2 & L3 & L4 & L5). split; [lia|]. split; [exact L2|]. split; [exact L3|]. split; [exact L4|].
  intros Hex. destruct (C04_integer_sqrt_exact n ltac:(lia)) as (g' & Eg' & G0 & G1 & G2). assert (g' = g) by congruence. subst g'. rewrite Z.pow_2_r in G1. rewrite Z.pow_2_r in G2.
  assert (Sg : Z.sqrt n = g) by (apply Z.sqrt_unique; lia). rewrite Sg.
  assert (G3 : g * g < n) by (specialize (Sq g); lia). apply L5; try assumption. apply Hp; try assumption. unfold aq_pos, aq_init. assert (1 <= g) by (clear - G2 Hn G0; nia). nia.
Qed.

(** For a square the generator fails at its first value. *)
Lemma aq_square g : 2 <= g -> exists s, aq_step (g * g) g (aq_init (g * g) g) = Ret s /\ aq_step (g * g) g s = Raise ZeroDivisionError.
Proof.
  intros Hg. unfold aq_step at 1, aq_init, pydiv, pymod. destruct (Z.eqb_spec 1 0); [lia|]. cbn [bind]. destruct (Z.eqb_spec (g * g) 0); [nia|]. cbn [bind]. eexists. split; [reflexivity|].
  unfold aq_step, pydiv. rewrite Z.div_1_r. replace (g * g + (g + 0) * (g + 0 - (g + 0) * 1 - g)) with 0 by ring. reflexivity.
Qed.
