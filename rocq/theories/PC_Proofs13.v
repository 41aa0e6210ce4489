(** * The method of Lagarias, Miller and Odlyzko *)
From Coq Require Import ZArith List Bool Lia Znumtheory Permutation Sorted.
From Verif Require Import Base Py Dict Sums Lists Core_Model Core_Props Primes_Spec Primes_Props PrimeList_Data PrimeList_Proofs Bit_Model Bit_Spec Bit_Props Pell_Model Pell_Proofs5 PC_Model PC_Spec PC_Proofs PC_Proofs2 PC_Proofs3 PC_Proofs5 PC_Proofs6 PC_Proofs8 PC_Proofs11 PC_Proofs12.
Import ListNotations.
Open Scope Z_scope.

Lemma cube3 z : z ^ 3 = z * z * z. Proof. ring. Qed.
Lemma quot_bound n root t3 p : 1 <= n -> 0 <= root -> n * n < (root + 1) * (root + 1) * (root + 1) -> 0 <= t3 -> n < (t3 + 1) * (t3 + 1) * (t3 + 1) -> t3 < p -> 0 <= n / p <= root.
Proof.
  intros Hn D F A C Hp. split; [apply Z.div_pos; lia|]. assert (n / p < root + 1); [|lia]. apply cube_lt; [apply Z.div_pos; lia|lia|]. apply Z.le_lt_trans with (n * n); [|exact F].
  assert (Q : 0 <= n / p) by (apply Z.div_pos; lia). pose proof (Z.mul_div_le n p ltac:(lia)) as M. set (q := n / p) in *. clearbody q. assert (P3 : n <= p * p * p) by (assert ((t3 + 1) * (t3 + 1) * (t3 + 1) <= p * p * p) by (apply cube_mono; lia); lia).
  assert (X : (p * q) * (p * q) * (p * q) <= n * n * n) by (apply cube_mono; split; [apply Z.mul_nonneg_nonneg|]; lia). clear - X P3 Q Hn Hp A. destruct (Z_le_gt_dec (q * q * q) (n * n)) as [|G]; [assumption|exfalso].
  assert (n * (n * n) < (p * p * p) * (q * q * q)); [|replace ((p * q) * (p * q) * (p * q)) with ((p * p * p) * (q * q * q)) in X by ring; lia]. apply Z.le_lt_trans with (p * p * p * (n * n)); [apply Z.mul_le_mono_nonneg_r; [nia|exact P3]|]. apply Z.mul_lt_mono_pos_l; lia.
Qed.

Lemma unmarked_free l i : unmarked l i = free l i.
Proof. unfold unmarked, free. induction l as [|p q IHq]; [reflexivity|]. cbn [forallb existsb]. rewrite IHq, negb_orb. reflexivity. Qed.

Section phase.
  Context (x root t c : Z) (ps : list Z) (HP : primes_upto root ps) (d : list (Z * list (Z * Z))).
  Hypothesis (HQ : forall n, t < n -> 0 <= x / n <= root) (Hc : 1 <= c <= zlen ps) (Hd : special_ok x t c d) (Hk : forall k, 1 <= k <= c - 2 -> In k (dkeys d)).

  Lemma leaves a : 1 <= a <= c - 2 -> dgetM d a = Ret (at_ d a).
  Proof using Hk. intros H. apply Hk, dget_key in H as (l & E). unfold dgetM, at_. rewrite E. reflexivity. Qed.
  Lemma leaf_range a v s : In (v, s) (at_ d a) -> 0 <= v <= root.
  Proof using Hd HQ. intros H. destruct Hd as (_ & _ & L). destruct (L a v s H) as (n & Hn & ->). apply HQ, Hn. Qed.

  Lemma zsum_perm l l' : Permutation l l' -> zsum l = zsum l'.
  Proof using. induction 1; rewrite ?zsum_cons; lia. Qed.
  Lemma lsum_sort a l : lsum ps a (pair_sort l) = lsum ps a l.
  Proof using. unfold lsum. apply zsum_perm, Permutation_map, pair_sort_perm. Qed.

  Lemma phase_lmo value block : sieved root ps 0 block ->
    exists block', foldM (fun '(value, block) a =>
      do p <- pyget ps (a - 1);
      do n <- pydiv root p;
      do block <- slice_fill p p n 0 block;
      do leaves <- dgetM d a;
      Ret (fst (fst (fold_left (lmo_leaf block) (pair_sort leaves) (value, 0, 0))), block)) (zsort (dkeys d)) (value, block) = Ret (value + ssum ps d, block').
  Proof using All.
    intros S0. rewrite (keys_sorted x t c d Hd Hk). rewrite (ssum_range x t ps c d Hd Hk). destruct (Z_le_gt_dec 1 (c - 1)) as [G|G].
    2:{ rewrite zrange_nil by lia. rewrite Sum_nil by lia. exists block. cbn. do 2 f_equal. lia. }
    destruct (foldM_range (fun '(value, block) a =>
      do p <- pyget ps (a - 1);
      do n <- pydiv root p;
      do block <- slice_fill p p n 0 block;
      do leaves <- dgetM d a;
      Ret (fst (fst (fold_left (lmo_leaf block) (pair_sort leaves) (value, 0, 0))), block))
      (fun a '(v, b) => v = value + Sum 1 a (fun a => lsum ps a (at_ d a)) /\ sieved root ps (a - 1) b) 1 (c - 1) (value, block)) as ((v, b) & E & -> & _).
    - exact G.
    - split; [rewrite Sum_nil by lia; lia|exact S0].
    - intros a (v, b) Ha (-> & Sv). rewrite rd_get by lia. cbn [bind]. pose proof (ps_ge2 root ps HP (a - 1) ltac:(lia)) as P2. unfold pydiv at 1. destruct (Z.eqb_spec (rd ps (a - 1)) 0); [lia|]. cbn [bind].
      destruct (sieve_step root ps a b HP ltac:(lia) Sv) as (b' & -> & Sv'). cbn [bind]. rewrite leaves by lia. cbn [bind]. eexists. split; [reflexivity|]. split; [|replace (a + 1 - 1) with a by lia; exact Sv'].
      assert (RB : forall v s, In (v, s) (pair_sort (at_ d a)) -> 0 <= v <= root) by (intros v s H; apply (leaf_range a v s), (proj1 (pair_sort_In _ _)), H).
      assert (Z0 : Sum 0 0 (rd b') = 0) by (apply Sum_nil; lia). pose proof (leaf_fold b' (pair_sort (at_ d a)) (pair_sort_sorted _) (value + Sum 1 a (fun a => lsum ps a (at_ d a))) 0 ltac:(lia)) as LF. rewrite Z0 in LF. rewrite LF by (intros v s H; apply RB in H; destruct Sv' as (-> & _); lia).
      rewrite (Sum_last 1 a) by lia. rewrite <- (lsum_sort a (at_ d a)). rewrite <- Z.add_assoc. f_equal. f_equal. unfold lsum. f_equal. apply map_ext_in. intros (v, s) H. rewrite (sieved_Phi root ps a b' v Sv'); [reflexivity|apply (RB v s H)].
    - exists b. exact E.
  Qed.

  Lemma unmarked_Phi a v : 0 <= v -> unmarked_count (pref ps a) v = ph ps a v.
  Proof using.
    intros Hv. unfold unmarked_count, ph, Phi, Sum. generalize (zrange 1 (v + 1)). induction l as [|i l IH]; [reflexivity|]. cbn [filter map]. rewrite zsum_cons, <- IH.
    rewrite unmarked_free.
    unfold cop, one. destruct (free (pref ps a) i); cbn [length]; lia.
  Qed.

  Definition marked (a : Z) (b : bita) : Prop := exists b0, bita_init root = Ret b0 /\ foldM bita_mark (pref ps a) b0 = Ret b.
  Lemma pref_pos a : 0 <= a -> Forall (fun p => 1 <= p) (pref ps a).
  Proof using HP. intros H. apply Forall_forall. intros p Hp. pose proof (pref_prime root ps HP a H) as F. rewrite Forall_forall in F. apply F, prime_ge_2 in Hp. lia. Qed.
  Lemma mark_step a b : 0 <= root -> 1 <= a <= zlen ps -> marked (a - 1) b -> exists b', bita_mark b (rd ps (a - 1)) = Ret b' /\ marked a b' /\ forall v, 0 <= v <= root -> bita_partial_sum b' v = Ret (ph ps a v).
  Proof using HP.
    intros R0 Ha (b0 & E0 & E1). assert (EP : pref ps a = pref ps (a - 1) ++ [rd ps (a - 1)]) by (rewrite <- pref_S by lia; f_equal; lia).
    destruct (C28_array_partial_sum root (pref ps a) 0 ltac:(lia) (pref_pos a ltac:(lia))) as (b0' & b' & E0' & E' & _). rewrite E0 in E0'. injection E0' as <-. rewrite EP, foldM_app, E1 in E'. cbn [bind foldM] in E'. exists b'. split; [|split].
    - destruct (bita_mark b (rd ps (a - 1))) as [z|e|]; cbn [bind] in E'; congruence.
    - exists b0. split; [exact E0|]. rewrite EP, foldM_app, E1. exact E'.
    - intros v Hv. destruct (C28_array_partial_sum root (pref ps a) v Hv (pref_pos a ltac:(lia))) as (b1 & b2 & F1 & F2 & F3). rewrite E0 in F1. injection F1 as <-. rewrite EP, foldM_app, E1 in F2. cbn [bind foldM] in F2. assert (b2 = b') as -> by congruence. rewrite F3, unmarked_Phi by lia. reflexivity.
  Qed.

  Lemma phase_bit value b0 : 0 <= root -> bita_init root = Ret b0 ->
    exists block', foldM (fun '(value, block) a =>
      do p <- pyget ps (a - 1);
      do block <- bita_mark block p;
      do leaves <- dgetM d a;
      do value <- foldM (fun value '(v, sign) =>
        do s <- bita_partial_sum block v;
        Ret (if 0 <? sign then value + s else value - s)) (pair_sort leaves) value;
      Ret (value, block)) (zsort (dkeys d)) (value, b0) = Ret (value + ssum ps d, block').
  Proof using All.
    intros R0 S0. rewrite (keys_sorted x t c d Hd Hk). rewrite (ssum_range x t ps c d Hd Hk). destruct (Z_le_gt_dec 1 (c - 1)) as [G|G].
    2:{ rewrite zrange_nil by lia. rewrite Sum_nil by lia. exists b0. cbn. do 2 f_equal. lia. }
    destruct (foldM_range (fun '(value, block) a =>
      do p <- pyget ps (a - 1);
      do block <- bita_mark block p;
      do leaves <- dgetM d a;
      do value <- foldM (fun value '(v, sign) =>
        do s <- bita_partial_sum block v;
        Ret (if 0 <? sign then value + s else value - s)) (pair_sort leaves) value;
      Ret (value, block))
      (fun a '(v, b) => v = value + Sum 1 a (fun a => lsum ps a (at_ d a)) /\ marked (a - 1) b) 1 (c - 1) (value, b0)) as ((v, b) & E & -> & _).
    - exact G.
    - split; [rewrite Sum_nil by lia; lia|exists b0; split; [exact S0|reflexivity]].
    - intros a (v, b) Ha (-> & Sv). rewrite rd_get by lia. cbn [bind]. destruct (mark_step a b R0 ltac:(lia) Sv) as (b' & -> & Sv' & PS). cbn [bind]. rewrite leaves by lia. cbn [bind].
      assert (RB : forall v s, In (v, s) (pair_sort (at_ d a)) -> 0 <= v <= root) by (intros v s H; apply (leaf_range a v s), (proj1 (pair_sort_In _ _)), H).
      assert (FL : forall l w, (forall v s, In (v, s) l -> 0 <= v <= root) -> foldM (fun value '(v, sign) => do s <- bita_partial_sum b' v; Ret (if 0 <? sign then value + s else value - s)) l w = Ret (w + lsum ps a l)).
      { induction l as [|(v, s) l IH]; intros w HL; [cbn [foldM]; f_equal; unfold lsum; cbn [map]; rewrite zsum_nil; lia|]. cbn [foldM]. rewrite PS by (apply (HL v s); left; reflexivity). cbn [bind]. rewrite IH by (intros v' s' H; apply (HL v' s'); right; exact H). f_equal. unfold lsum. cbn [map]. rewrite zsum_cons. pose proof (eq_refl : sgn s = if 0 <? s then 1 else -1) as SE. destruct (0 <? s); rewrite SE; lia. }
      rewrite FL by exact RB. cbn [bind]. eexists. split; [reflexivity|]. split; [|replace (a + 1 - 1) with a by lia; exact Sv'].
      rewrite (Sum_last 1 a) by lia. rewrite lsum_sort. lia.
    - exists b. exact E.
  Qed.
End phase.

Lemma lmo_bit_gen x root t s e : 8 <= x -> (0 <= root /\ root * root * root <= x * x < (root + 1) * (root + 1) * (root + 1)) -> 2 <= t <= s -> (forall n, t < n -> 0 <= x / n <= root) -> (s * s <= x < (s + 1) * (s + 1)) ->
  (forall ps, primes_upto root ps -> forall j, pi t <= j < pi s -> Phi one (pref ps j) (x / rd ps j) = 1 + pi (x / rd ps j) - j + e (rd ps j)) -> 
  exists ps, primes_upto root ps /\ lmo_bit root t s x = Ret (pi x + Sum (pi t) (pi s) (fun j => e (rd ps j))).
Proof.
  intros Hx (R0 & R1 & R2) Ht HQ (S1 & S2) HJ. unfold lmo_bit. destruct (C14_primes root) as (ps & -> & HP). cbn [bind]. specialize (HJ ps HP).
  assert (SR : s <= root). { assert (s < root + 1); [|lia]. apply cube_lt; [lia|lia|]. assert (s * s * (s * s) <= x * x) by (apply Z.mul_le_mono_nonneg; nia). assert (s * s * s * 1 <= s * s * s * s) by (apply Z.mul_le_mono_nonneg_l; nia). lia. }
  rewrite (pi_bisect root ps HP t) by lia. rewrite (pi_bisect root ps HP s) by lia. pose proof (pi_mono t s ltac:(lia)) as PM. pose proof (pi_range root ps HP s SR) as PR.
  destruct (value_ok root ps HP x s t (fun j => e (rd ps j)) SR ltac:(nia) S2 PM) as (v & -> & EV).
  { intros j Hj. pose proof (pi_nonneg t). split; [|apply HJ, Hj]. apply HQ. destruct (Z_lt_le_dec t (rd ps j)) as [|L]; [assumption|]. apply (pi_rd root ps HP) in L; lia. }
  cbn [bind]. destruct (tree_ok root x t ps HP (pi t) ltac:(lia) eq_refl ltac:(lia) v) as (v' & d & -> & Sp & K & ET). cbn [bind].
  destruct (C28_array_partial_sum root [] 0 ltac:(lia) (Forall_nil _)) as (b0 & _ & B0 & _). rewrite B0. cbn [bind]. pose proof (last_half root ps t HP ltac:(lia)) as (LH & _).
  destruct (phase_bit x root t (pi t) ps HP d HQ ltac:(lia) Sp K v' b0 R0 B0) as (b' & E). rewrite E. cbn [bind]. exists ps. split; [exact HP|]. f_equal. lia.
Qed.
