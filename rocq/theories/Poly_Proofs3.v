(** * The class Polynomial *)
From Coq Require Import ZArith List Lia Bool.
From Verif Require Import Base Py Lists Sums Poly_Spec Poly_Model Poly_Proofs Poly_Proofs2.
Import ListNotations.
Open Scope Z_scope.

(** ** Normal forms *)
Lemma last_rd (L : list Z) : L <> [] -> last L 0 = rd L (zlen L - 1).
Proof.
  intros N. destruct (exists_last N) as (l & a & ->). rewrite last_last, rd_app, zlen_app. change (zlen [a]) with 1. destruct (Z.ltb_spec (zlen l + 1 - 1) (zlen l)); [lia|].
  replace (zlen l + 1 - 1 - zlen l) with 0 by lia. reflexivity.
Qed.

Lemma strip_ok : forall n L, length L = n -> L <> [] -> normal (strip n L) /\ zlen (strip n L) <= zlen L /\ forall i, rd (strip n L) i = rd L i.
Proof.
  induction n as [|n IH]; intros L E N; [destruct L; [congruence|discriminate]|]. cbn [strip]. destruct n as [|n].
  - split; [split; [exact N|left; exact E]|]. split; [lia|reflexivity].
  - destruct (Z.eqb_spec (last L 0) 0) as [Z0|D]; [|split; [split; [exact N|right; exact D]|]; split; [lia|reflexivity]].
    destruct (exists_last N) as (l & a & ->). rewrite last_last in Z0. subst a. rewrite removelast_last. rewrite app_length in E. cbn [length] in E.
    destruct (IH l ltac:(lia)) as (Nm & Ln & R); [destruct l; [cbn in E; lia|discriminate]|]. split; [exact Nm|]. rewrite zlen_app. change (zlen [0]) with 1. split; [lia|].
    intros i. rewrite R, rd_app. destruct (Z.ltb_spec i (zlen l)); [reflexivity|]. rewrite rd_out by lia. rewrite rd_cons, rd_nil. destruct (i - zlen l =? 0); reflexivity.
Qed.

Lemma polynomial_ok L : normal (polynomial L) /\ forall i, rd (polynomial L) i = rd L i.
Proof.
  unfold polynomial. destruct L as [|a L].
  - split; [split; [discriminate|left; reflexivity]|]. intros i. rewrite rd_cons, !rd_nil. destruct (i =? 0); reflexivity.
  - destruct (strip_ok (length (a :: L)) (a :: L) eq_refl ltac:(discriminate)) as (N & _ & R). split; assumption.
Qed.

Lemma normal_ext p q : normal p -> normal q -> (forall i, rd p i = rd q i) -> p = q.
Proof.
  assert (Ln : forall p q, normal p -> normal q -> (forall i, rd p i = rd q i) -> zlen p <= zlen q).
  { clear. intros p q (N & Hp) (N' & Hq) H. destruct (Z.le_gt_cases (zlen p) (zlen q)) as [L|L]; [exact L|exfalso]. assert (1 <= zlen q) by (unfold zlen; destruct q; [congruence|cbn [length]; lia]).
    destruct Hp as [Hp|Hp]; [unfold zlen in *; lia|]. apply Hp. rewrite last_rd by exact N. rewrite H. apply rd_out. lia. }
  intros Np Nq H. apply rd_ext; [|intros; apply H]. apply Z.le_antisymm; [apply Ln; assumption|apply Ln; auto].
Qed.

Lemma normal_polynomial p : normal p -> polynomial p = p.
Proof. intros N. destruct (polynomial_ok p) as (N' & R). apply normal_ext; assumption. Qed.

Lemma list_eqb_spec A : forall B, list_eqb A B = true <-> A = B.
Proof.
  induction A as [|a A IH]; intros [|b B]; cbn [list_eqb]; try (split; [discriminate|discriminate]); [split; reflexivity|]. rewrite andb_true_iff, Z.eqb_eq, IH. split; [intros (-> & ->); reflexivity|intros [= -> ->]; auto].
Qed.

Lemma normal_one c : normal [c]. Proof. split; [discriminate|left; reflexivity]. Qed.

(** ** The operations *)
Lemma p_add_ok p o : exists s, p_add p o = Ret s /\ normal s /\ forall i, rd s i = rd p i + rd (match o with Poly q => q | Num c => [c] end) i.
Proof.
  unfold p_add. destruct (list_add_ok p (match o with Poly q => q | Num c => [c] end)) as (C & E & _ & R). rewrite E. cbn [bind]. destruct (polynomial_ok C) as (N & R'). eexists. split; [reflexivity|]. split; [exact N|]. intros i. rewrite R', R. reflexivity.
Qed.
Lemma p_neg_ok p : normal (p_neg p) /\ forall i, rd (p_neg p) i = - rd p i.
Proof. unfold p_neg. destruct (polynomial_ok (map Z.opp p)) as (N & R). split; [exact N|]. intros i. rewrite R, rd_map by reflexivity. reflexivity. Qed.
Lemma p_sub_ok p q : exists s, p_sub p (Poly q) = Ret s /\ normal s /\ forall i, rd s i = rd p i - rd q i.
Proof.
  unfold p_sub. destruct (list_subtract_ok p q) as (C & E & _ & R). rewrite E. cbn [bind]. destruct (polynomial_ok C) as (N & R'). eexists. split; [reflexivity|]. split; [exact N|]. intros i. rewrite R', R. reflexivity.
Qed.
Lemma mul_karatsuba_eq M N : mul_karatsuba M N = mul_classical M N.
Proof. unfold mul_karatsuba. apply karatsuba_ok. unfold zlen. lia. Qed.
Lemma p_mul_ok p q : exists s, p_mul p (Poly q) = Ret s /\ normal s /\ forall i, rd s i = conv (rd p) (rd q) i.
Proof.
  unfold p_mul. rewrite mul_karatsuba_eq. destruct (mul_classical_ok p q) as (C & E & _ & R). rewrite E. cbn [bind]. destruct (polynomial_ok C) as (N & R'). eexists. split; [reflexivity|]. split; [exact N|]. intros i. rewrite R', R. reflexivity.
Qed.
Lemma p_mul_num_ok p c : exists s, p_mul p (Num c) = Ret s /\ normal s /\ forall i, rd s i = c * rd p i.
Proof.
  cbn [p_mul]. destruct (polynomial_ok (map (fun a => c * a) p)) as (N & R). eexists. split; [reflexivity|]. split; [exact N|]. intros i. rewrite R. apply rd_map. lia.
Qed.
Lemma p_pow_ok p k : (exists i, rd p i <> 0) -> 0 <= k -> exists s, p_pow p k = Ret s /\ normal s /\ forall i, rd s i = cpow (rd p) (Z.to_nat k) i.
Proof.
  intros H Hk. unfold p_pow. destruct (power_jcp_ok p k H Hk) as (C & E & R). rewrite E. cbn [bind]. destruct (polynomial_ok C) as (N & R'). eexists. split; [reflexivity|]. split; [exact N|]. intros i. rewrite R', R. reflexivity.
Qed.

(** ** Values *)
Definition val (f : Z -> Z) (n x : Z) : Z := Sum 0 n (fun i => f i * x ^ i).
Lemma value_val A x : value A x = val (rd A) (zlen A) x. Proof. reflexivity. Qed.

Lemma val_extend f n n' x : 0 <= n <= n' -> (forall i, n <= i -> f i = 0) -> val f n' x = val f n x.
Proof. intros H Hf. unfold val. apply Sum_extend; [exact H|]. intros i Hi. rewrite Hf by lia. lia. Qed.
Lemma value_any A x n : zlen A <= n -> value A x = val (rd A) n x.
Proof. intros H. rewrite value_val. symmetry. apply val_extend; [pose proof (zlen_nonneg A); lia|]. intros i Hi. apply rd_out. lia. Qed.
Lemma value_ext A B x : (forall i, rd A i = rd B i) -> value A x = value B x.
Proof.
  intros H. rewrite (value_any A x (Z.max (zlen A) (zlen B))), (value_any B x (Z.max (zlen A) (zlen B))) by lia. apply Sum_ext. intros i _. rewrite H. reflexivity.
Qed.
Lemma val_conv f g m n x : 0 <= m -> 0 <= n -> (forall j, m <= j -> f j = 0) -> (forall j, n <= j -> g j = 0) -> (forall j, j < 0 -> g j = 0) ->
  val (conv f g) (m + n) x = val f m x * val g n x.
Proof.
  intros Hm Hn Hf Hg Hg0. unfold val. rewrite (Sum_ext _ _ _ (fun t => Sum 0 m (fun j => f j * g (t - j) * x ^ t))); [|intros t _; rewrite (conv_finite f g m) by assumption; rewrite <- Sum_mul_r; reflexivity].
  rewrite Sum_swap, <- Sum_mul_r. apply Sum_ext. intros j Hj.
  transitivity (f j * x ^ j * Sum 0 (m + n - j) (fun i => g i * x ^ i)); [|f_equal; apply Sum_extend; [lia|]; intros i Hi; rewrite Hg by lia; lia].
  rewrite (Sum_app 0 j (m + n)) by lia. rewrite (Sum_zero 0 j) by (intros t Ht; rewrite (Hg0 (t - j)) by lia; lia). rewrite Z.add_0_l.
  replace (Sum j (m + n)) with (Sum (0 + j) (m + n - j + j)) by (f_equal; lia). rewrite <- (Sum_shift 0 (m + n - j) j (fun t => f j * g (t - j) * x ^ t)), <- Sum_mul. apply Sum_ext. intros i Hi.
  replace (i + j - j) with i by lia. rewrite Z.pow_add_r by lia. ring.
Qed.

Lemma value_add p q s x : (forall i, rd s i = rd p i + rd q i) -> value s x = value p x + value q x.
Proof.
  intros H. set (n := Z.max (zlen s) (Z.max (zlen p) (zlen q))). rewrite (value_any s x n), (value_any p x n), (value_any q x n) by lia. unfold val. rewrite <- Sum_plus. apply Sum_ext. intros i _. rewrite H. ring.
Qed.
Lemma value_sub p q s x : (forall i, rd s i = rd p i - rd q i) -> value s x = value p x - value q x.
Proof.
  intros H. set (n := Z.max (zlen s) (Z.max (zlen p) (zlen q))). rewrite (value_any s x n), (value_any p x n), (value_any q x n) by lia. unfold val. rewrite <- Sum_minus. apply Sum_ext. intros i _. rewrite H. ring.
Qed.
Lemma value_scale c p s x : (forall i, rd s i = c * rd p i) -> value s x = c * value p x.
Proof.
  intros H. set (n := Z.max (zlen s) (zlen p)). rewrite (value_any s x n), (value_any p x n) by lia. unfold val. rewrite <- Sum_mul. apply Sum_ext. intros i _. rewrite H. ring.
Qed.
Lemma rd_top A i : zlen A <= i -> rd A i = 0. Proof. intros; apply rd_out; lia. Qed.
Lemma rd_neg A i : i < 0 -> rd A i = 0. Proof. intros; apply rd_out; lia. Qed.
Lemma value_mul p q s x : (forall i, rd s i = conv (rd p) (rd q) i) -> value s x = value p x * value q x.
Proof.
  intros H. rewrite (value_any s x (Z.max (zlen s) (zlen p + zlen q))) by lia. rewrite !value_val. pose proof (zlen_nonneg p). pose proof (zlen_nonneg q).
  rewrite <- (val_conv (rd p) (rd q)) by (try lia; intros; first [apply rd_top; lia | apply rd_neg; lia]). unfold val. rewrite (Sum_ext _ _ _ (fun i => conv (rd p) (rd q) i * x ^ i)) by (intros i _; rewrite H; reflexivity).
  apply Sum_extend; [lia|]. intros i Hi. rewrite (conv_top _ _ (zlen p - 1) (zlen q - 1)) by (try lia; intros; apply rd_top; lia). lia.
Qed.
Lemma value_one_term c x : value [c] x = c.
Proof. rewrite value_val. change (zlen [c]) with 1. unfold val. rewrite (Sum_one 0). rewrite rd_cons. cbn. lia. Qed.
Lemma value_pow p k s x : (forall i, rd s i = cpow (rd p) k i) -> value s x = value p x ^ Z.of_nat k.
Proof.
  intros H. assert (G : val (cpow (rd p) k) (zlen p * Z.of_nat k + 1) x = value p x ^ Z.of_nat k).
  { clear s H. pose proof (zlen_nonneg p). assert (Top : forall k j, zlen p * Z.of_nat k + 1 <= j -> cpow (rd p) k j = 0).
    { intros k' j Hj. destruct (Z.eq_dec (zlen p) 0) as [E|E]; [|apply (cpow_top _ _ (zlen p - 1)); [intros; apply rd_top; lia|nia]].
      destruct k' as [|k']; [cbn [cpow]; unfold unit_series; destruct (Z.eqb_spec j 0); lia|]. cbn [cpow]. apply conv_zero_l. intros i. apply rd_out. lia. }
    induction k as [|k IH]; [unfold val; rewrite Z.mul_0_r, (Sum_one 0); reflexivity|]. rewrite Nat2Z.inj_succ, Z.pow_succ_r, <- IH by lia. cbn [cpow].
    replace (zlen p * Z.succ (Z.of_nat k) + 1) with (zlen p + (zlen p * Z.of_nat k + 1)) by lia. rewrite value_val. apply val_conv; [lia|nia|intros; apply rd_top; lia|apply Top|apply cpow_neg]. }
  rewrite <- G. rewrite (value_any s x (Z.max (zlen s) (zlen p * Z.of_nat k + 1))) by lia. unfold val. rewrite (Sum_ext _ _ _ (fun i => cpow (rd p) k i * x ^ i)) by (intros i _; rewrite H; reflexivity).
  apply Sum_extend; [pose proof (zlen_nonneg p); nia|]. intros i Hi. pose proof (zlen_nonneg p).
  destruct (Z.eq_dec (zlen p) 0) as [E|E]; [|rewrite (cpow_top _ _ (zlen p - 1)); [lia|intros; apply rd_top; lia|nia]].
  destruct k as [|k]; [cbn [cpow]; unfold unit_series; destruct (Z.eqb_spec i 0); lia|]. cbn [cpow]. rewrite conv_zero_l; [lia|]. intros j. apply rd_out. lia.
Qed.

Lemma p_call_ok p x : p_call p x = value p x.
Proof.
  unfold p_call. rewrite <- fold_left_rev_right, rev_involutive. induction p as [|a p IH]; [reflexivity|]. cbn [fold_right]. rewrite IH, !value_val.
  assert (C : zlen (a :: p) = zlen p + 1) by (unfold zlen; cbn [length]; lia). rewrite C. unfold val. pose proof (zlen_nonneg p). rewrite (Sum_first 0 (zlen p + 1)) by lia. rewrite rd_cons. cbn [Z.eqb].
  change (0 + 1) with (0 + 1) at 1. rewrite <- (Sum_shift 0 (zlen p) 1 (fun i => rd (a :: p) i * x ^ i)). rewrite <- Sum_mul_r. rewrite Z.pow_0_r, Z.add_comm. f_equal; [lia|]. apply Sum_ext. intros i Hi.
  rewrite rd_cons. destruct (Z.eqb_spec (i + 1) 0); [lia|]. replace (i + 1 - 1) with i by lia. rewrite Z.pow_add_r by lia. ring.
Qed.

(** ** power_binary *)
Lemma cpow_plus f a b i : cpow f (a + b) i = conv (cpow f a) (cpow f b) i.
Proof.
  revert i. induction a as [|a IH]; intros i.
  - cbn [Nat.add cpow]. symmetry. apply conv_one_l, cpow_neg.
  - cbn [Nat.add cpow]. rewrite conv_assoc. apply conv_ext; [reflexivity|]. intros j _. apply IH.
Qed.
Lemma cpow_double f k i : cpow (conv f f) k i = cpow f (k + k) i.
Proof.
  revert i. induction k as [|k IH]; intros i; [reflexivity|]. replace (S k + S k)%nat with (S (S (k + k))) by lia. cbn [cpow]. rewrite conv_assoc. apply conv_ext; [reflexivity|]. intros j _. apply conv_ext; [reflexivity|]. intros; apply IH.
Qed.

Lemma power_loop_ok : forall fuel z y k, 1 <= k < 2 ^ Z.of_nat fuel -> normal y ->
  exists w, power_loop fuel z y k = Ret w /\ normal w /\ forall i, rd w i = conv (cpow (rd z) (Z.to_nat k)) (rd y) i.
Proof.
  induction fuel as [|fuel IH]; intros z y k Hk Ny; [cbn in Hk; lia|]. cbn [power_loop]. rewrite Nat2Z.inj_succ, Z.pow_succ_r in Hk by lia.
  pose proof (Z.div_mod k 2 ltac:(lia)) as Dm. pose proof (Z.mod_pos_bound k 2 ltac:(lia)) as Bm.
  assert (Y : exists y', (if k mod 2 =? 1 then p_mul z (Poly y) else Ret y) = Ret y' /\ normal y' /\ forall i, rd y' i = conv (cpow (rd z) (Z.to_nat (k mod 2))) (rd y) i).
  { destruct (Z.eqb_spec (k mod 2) 1) as [E|E].
    - destruct (p_mul_ok z y) as (s & Es & Ns & Rs). exists s. split; [exact Es|]. split; [exact Ns|]. intros i. rewrite Rs, E. change (Z.to_nat 1) with 1%nat. cbn [cpow].
      apply conv_ext; [|reflexivity]. intros j Hj. rewrite conv_comm, conv_one_l; [reflexivity|lia].
    - exists y. split; [reflexivity|]. split; [exact Ny|]. intros i. replace (k mod 2) with 0 by lia. cbn [Z.to_nat cpow]. symmetry. apply conv_one_l. apply rd_neg. }
  destruct Y as (y' & -> & Ny' & Ry). cbn [bind]. destruct (Z.eqb_spec (k / 2) 0) as [E0|E0].
  - exists y'. split; [reflexivity|]. split; [exact Ny'|]. intros i. rewrite Ry. do 3 f_equal. lia.
  - destruct (p_mul_ok z z) as (z' & Ez & Nz & Rz). rewrite Ez. cbn [bind]. destruct (IH z' y' (k / 2)) as (w & Ew & Nw & Rw); [split; [|apply Z.div_lt_upper_bound; lia]; pose proof (Z.div_pos k 2); lia|exact Ny'|].
    exists w. split; [exact Ew|]. split; [exact Nw|]. intros i. rewrite Rw. rewrite (conv_ext _ (cpow (rd z) (Z.to_nat (k / 2) + Z.to_nat (k / 2))) _ (conv (cpow (rd z) (Z.to_nat (k mod 2))) (rd y))).
    + rewrite <- conv_assoc. apply conv_ext; [|reflexivity]. intros j _. rewrite <- cpow_plus. f_equal. pose proof (Z.div_pos k 2). lia.
    + intros j _. rewrite <- cpow_double. apply cpow_ext. exact Rz.
    + intros j _. apply Ry.
Qed.

Lemma power_binary_ok p k : 0 <= k -> exists w, power_binary p k = Ret w /\ normal w /\ forall i, rd w i = cpow (rd p) (Z.to_nat k) i.
Proof.
  intros Hk. unfold power_binary. change (polynomial [1]) with [1]. assert (One : forall i, rd [1] i = unit_series i) by (intros i; rewrite rd_cons, rd_nil; reflexivity).
  destruct (Z.eqb_spec k 0) as [->|D].
  - exists [1]. split; [reflexivity|]. split; [apply normal_one|]. exact One.
  - destruct (power_loop_ok (bits k) p [1] k) as (w & E & N & R); [|apply normal_one|].
    + split; [lia|]. unfold bits. rewrite Z2Nat.id by (pose proof (Z.log2_nonneg k); lia). apply Z.log2_spec. lia.
    + exists w. split; [exact E|]. split; [exact N|]. intros i. rewrite R, conv_comm. rewrite (conv_ext _ unit_series _ (cpow (rd p) (Z.to_nat k))) by (intros; try apply One; reflexivity). apply conv_one_l. apply cpow_neg.
Qed.
