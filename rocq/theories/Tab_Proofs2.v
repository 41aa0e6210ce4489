(** * Sieved tables: tau, sigma and the Moebius function *)
From Coq Require Import ZArith List Bool Lia Znumtheory Sorted.
From Verif Require Import Base Py Lists NT Sums PyFloat_Model PyFloat_Proofs Core_Model Core_Props Sieves_Model Primes_Spec Primality_Spec Primes_Props Factor_Spec Div_Proofs Arith_Spec Arith_Proofs Sqrt_Proofs2 Tab_Model Tab_Proofs.
Import ListNotations.
Open Scope Z_scope.

(** ** Sums over divisors, by pairs *)
Definition dsum (g : Z -> Z) (m : Z) : Z := Sum 1 (m + 1) (fun d => if m mod d =? 0 then g d else 0).

Lemma zsum_filter (p : Z -> bool) (g : Z -> Z) l : zsum (map g (filter p l)) = zsum (map (fun x => if p x then g x else 0) l).
Proof. induction l as [|x l IH]; [reflexivity|]. cbn [filter map]. rewrite (zsum_cons (if p x then g x else 0)), <- IH. destruct (p x); [cbn [map]; rewrite zsum_cons; reflexivity|lia]. Qed.

Lemma sigma_dsum m : sigma 1 m = dsum (fun d => d) m.
Proof. unfold sigma, dsum, Sum, all_divisors. rewrite zsum_filter. f_equal. apply map_ext. intros d. rewrite Z.pow_1_r. reflexivity. Qed.
Lemma tau_dsum m : tau m = dsum (fun _ => 1) m.
Proof.
  unfold tau, dsum, Sum, all_divisors. rewrite <- (zsum_filter (fun d => m mod d =? 0) (fun _ => 1)). generalize (filter (fun d => m mod d =? 0) (zrange 1 (m + 1))) as l. induction l as [|x l IH]; [reflexivity|]. cbn [length map]. rewrite zsum_cons, <- IH. lia.
Qed.

(** The contribution of j to the entry m. *)
Definition contrib (g : Z -> Z) (m j : Z) : Z := if m mod j =? 0 then (if j * j <? m then g j + g (m / j) else if j * j =? m then g j else 0) else 0.

Lemma pairs_sum g m : 1 <= m -> dsum g m = Sum 1 (m + 1) (contrib g m).
Proof.
  intros Hm. unfold dsum.
  transitivity (Sum 1 (m + 1) (fun d => (if m mod d =? 0 then (if d * d <? m then g d else if d * d =? m then g d else 0) else 0) + Sum 1 (m + 1) (fun j => if (j * d =? m) && (j * j <? m) then g d else 0))).
  - apply Sum_ext. intros d Hd. destruct (Z.eqb_spec (m mod d) 0) as [E|N].
    + pose proof (Z.div_mod m d ltac:(lia)) as DM. rewrite E, Z.add_0_r in DM. assert (Hj : 1 <= m / d < m + 1) by nia. rewrite (Sum_pick _ _ (m / d) _ Hj).
      * destruct (Z.eqb_spec (m / d * d) m); [|lia]. cbn [andb]. set (j := m / d) in *. destruct (Z.ltb_spec (d * d) m), (Z.eqb_spec (d * d) m), (Z.ltb_spec (j * j) m); nia.
      * intros i Hi Ni. destruct (Z.eqb_spec (i * d) m); [exfalso; nia|reflexivity].
    + rewrite Sum_zero; [lia|]. intros j Hj. destruct (Z.eqb_spec (j * d) m) as [Ej|]; [|reflexivity]. exfalso. apply N. rewrite <- Ej. apply Z_mod_mult.
  - rewrite Sum_plus, (Sum_swap 1 (m + 1) 1 (m + 1) (fun d j => if (j * d =? m) && (j * j <? m) then g d else 0)), <- Sum_plus. apply Sum_ext. intros j Hj. unfold contrib. destruct (Z.eqb_spec (m mod j) 0) as [E|N].
    + pose proof (Z.div_mod m j ltac:(lia)) as DM. rewrite E, Z.add_0_r in DM. assert (Hd : 1 <= m / j < m + 1) by nia. rewrite (Sum_pick _ _ (m / j) _ Hd).
      * destruct (Z.eqb_spec (j * (m / j)) m); [|lia]. cbn [andb]. destruct (Z.ltb_spec (j * j) m); [reflexivity|]. destruct (j * j =? m); lia.
      * intros i Hi Ni. destruct (Z.eqb_spec (j * i) m); [exfalso; nia|reflexivity].
    + rewrite Sum_zero; [lia|]. intros d Hd. destruct (Z.eqb_spec (j * d) m) as [Ej|]; [|reflexivity]. exfalso. apply N. rewrite <- Ej, Z.mul_comm. apply Z_mod_mult.
Qed.

(** Only j up to the root of n matters. *)
Lemma pairs_upto g m n s : 1 <= m <= n -> 0 <= s -> n < (s + 1) * (s + 1) -> Sum 1 (s + 1) (contrib g m) = dsum g m.
Proof.
  intros Hm Hs Ln. rewrite pairs_sum by lia. destruct (Z_le_gt_dec s m) as [L|G].
  - symmetry. apply Sum_extend; [lia|]. intros j Hj. unfold contrib. destruct (m mod j =? 0); [|reflexivity]. assert (m < j * j) by nia. destruct (Z.ltb_spec (j * j) m); [lia|]. destruct (Z.eqb_spec (j * j) m); [lia|reflexivity].
  - apply Sum_extend; [lia|]. intros j Hj. unfold contrib. rewrite Z.mod_small by lia. destruct (Z.eqb_spec m 0); [lia|reflexivity].
Qed.

Lemma add_at block i y : 0 <= i < zlen block -> exists b', (do x <- pyget block i; pyset block i (x + y)) = Ret b' /\ zlen b' = zlen block /\ forall j, rd b' j = rd block j + (if j =? i then y else 0).
Proof.
  intros Hi. rewrite rd_get by exact Hi. cbn [bind]. destruct (rd_set block i (rd block i + y) Hi) as (b & E & L & R). exists b. split; [exact E|]. split; [exact L|]. intros j. rewrite R. destruct (Z.eqb_spec j i) as [->|]; lia.
Qed.

Lemma pair_sweep_ok g n : 1 <= n < 2 ^ 52 -> exists block, pair_sweep g (fun j k => g j + g k) n = Ret block /\ zlen block = n + 1 /\ rd block 0 = 0 /\ forall m, 1 <= m <= n -> rd block m = dsum g m.
Proof.
  intros Hn. unfold pair_sweep. rewrite int_pow_half_exact by lia. cbn [bind]. assert (Hn1 : 1 <= n) by lia. clear Hn. pose proof (Z.sqrt_spec n ltac:(lia)) as Sq. cbv zeta in Sq. pose proof (Z.sqrt_nonneg n) as S0. set (s := Z.sqrt n) in *.
  edestruct (foldM_range (fun block j => do x <- pyget block (j * j); do block <- pyset block (j * j) (x + g j);
    foldM (fun block k => do x <- pyget block (k * j); pyset block (k * j) (x + (g j + g k))) (zrange (j + 1) (n / j + 1)) block)
    (fun J block => zlen block = n + 1 /\ rd block 0 = 0 /\ forall m, 1 <= m <= n -> rd block m = Sum 1 J (contrib g m)) 1 (s + 1) (repeat 0 (Z.to_nat (n + 1)))) as (b & E & L & Z0 & R); [lia| | |].
  - split; [rewrite zlen_repeat; lia|]. split; [apply rd_repeat|]. intros m Hm. rewrite Sum_nil by lia. apply rd_repeat.
  - intros j b Hj (L & Z0 & R). assert (Sj : j * j <= n) by (apply Z.le_trans with (s * s); [apply Z.mul_le_mono_nonneg; lia|apply Sq]). destruct (add_at b (j * j) (g j)) as (b1 & E1 & L1 & R1); [clear - L Sj Hj; nia|]. assert (Bj : 0 <= j * j < zlen b) by (clear - L Sj Hj; nia).
    assert (E1' : forall f : list Z -> outcome (list Z), (do x <- pyget b (j * j); do b' <- pyset b (j * j) (x + g j); f b') = f b1).
    { intros f. rewrite rd_get in E1 |- * by lia. cbn [bind] in *. rewrite E1. reflexivity. }
    rewrite E1'. assert (Q : j <= n / j) by (apply Z.div_le_lower_bound; lia).
    destruct (foldM_range (fun block k => do x <- pyget block (k * j); pyset block (k * j) (x + (g j + g k)))
      (fun K block => zlen block = n + 1 /\ forall m, rd block m = rd b1 m + Sum (j + 1) K (fun k => if m =? k * j then g j + g k else 0)) (j + 1) (n / j + 1) b1) as (b2 & E2 & L2 & R2); [lia| | |].
    + split; [lia|]. intros m. rewrite Sum_nil by lia. lia.
    + intros k c Hk (Lc & Rc). assert (k * j <= n) by (pose proof (Z.mul_div_le n j ltac:(lia)); nia). destruct (add_at c (k * j) (g j + g k)) as (c' & Ec & Lc' & Rc'); [nia|]. exists c'. split; [exact Ec|]. split; [lia|]. intros m. rewrite Rc', Rc, Sum_last by lia. lia.
    + exists b2. split; [exact E2|]. split; [exact L2|]. split.
      * rewrite R2, R1, Z0. destruct (Z.eqb_spec 0 (j * j)) as [Ej|]; [clear - Ej Hj; nia|]. rewrite Sum_zero; [reflexivity|]. intros k Hk. destruct (Z.eqb_spec 0 (k * j)) as [Ej|]; [clear - Ej Hk Hj; nia|reflexivity].
      * intros m Hm. rewrite R2, R1, R by exact Hm. rewrite (Sum_last 1 j) by lia. rewrite <- Z.add_assoc. f_equal. unfold contrib. destruct (Z.eqb_spec (m mod j) 0) as [Em|Nm].
        -- pose proof (Z.div_mod m j ltac:(lia)) as DM. rewrite Em, Z.add_0_r in DM. destruct (Z.ltb_spec (j * j) m) as [Lm|Gm].
           ++ assert (Hk : j + 1 <= m / j < n / j + 1) by (split; [clear - DM Lm Hj; nia|]; pose proof (Z.div_le_mono m n j); lia). rewrite (Sum_pick _ _ (m / j) _ Hk).
              ** destruct (Z.eqb_spec m (j * j)); [lia|]. destruct (Z.eqb_spec m (m / j * j)); [reflexivity|lia].
              ** intros i Hi Ni. destruct (Z.eqb_spec m (i * j)) as [Ei|]; [exfalso; apply Ni; rewrite Ei, Z.div_mul; lia|reflexivity].
           ++ rewrite Sum_zero; [destruct (Z.eqb_spec m (j * j)), (Z.eqb_spec (j * j) m); lia|]. intros k Hk. destruct (Z.eqb_spec m (k * j)) as [Ek|]; [exfalso; clear - Ek Hk Hj Gm; nia|reflexivity].
        -- rewrite Sum_zero; [|intros k Hk; destruct (Z.eqb_spec m (k * j)) as [->|]; [exfalso; apply Nm, Z_mod_mult|reflexivity]]. destruct (Z.eqb_spec m (j * j)) as [->|]; [exfalso; apply Nm, Z_mod_mult|reflexivity].
  - exists b. split; [exact E|]. split; [exact L|]. split; [exact Z0|]. intros m Hm. rewrite R by exact Hm. apply (pairs_upto g m n s); lia.
Qed.
