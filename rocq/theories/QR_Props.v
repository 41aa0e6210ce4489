(** * Jacobi symbols (C08), square roots (C11), quadratic congruences (C13), Solovay-Strassen (C15) *)
From Coq Require Import ZArith List Bool Lia Znumtheory Sorted.
From Verif Require Import Base Py Lists NT NT_Euler Core_Model Core_Props Factor_Model Factor_Spec Div_Proofs Factor_Props Arith_Spec NT_Cong NT_Prim Ord_Spec Ord_Model Ord_Proofs Ord_Proofs2 Ord_Props
  QR_Spec NT_QR QR_Proofs Sqrt_Model Sqrt_Proofs Sqrt_Proofs2 Sqrt_Proofs3.
Import ListNotations.
Open Scope Z_scope.

(** ** C08 *)
(** For odd m >= 1 the value is the product of the Legendre symbols over the factorization of m. *)
Theorem C08_jacobi_symbol : forall a m l, 0 < m -> Z.odd m = true -> factorization m l -> jacobi_symbol a m = Ret (jacobi a l).
Proof. exact jacobi_symbol_ok. Qed.

(** Every m has a factorization, so the hypothesis only names it. *)
Theorem C08_jacobi_symbol_even : forall a m, jacobi_symbol a m = Raise ValueError <-> Z.odd m = false.
Proof.
  intros a m. split.
  - intros E. destruct (Z.odd m) eqn:O; [|reflexivity]. exfalso. destruct (Z.lt_trichotomy m 0) as [L|[->|L]]; [rewrite jacobi_neg in E by assumption; discriminate|discriminate|].
    destruct (odd_prime_list m L O) as (ps & H & Em). rewrite (jacobi_ok a m ps H Em) in E. discriminate.
  - intros O. unfold jacobi_symbol. rewrite land1_odd, O. reflexivity.
Qed.

Theorem C08_legendre : forall a p, prime p -> p <> 2 -> jacobi_symbol a p = Ret (legendre a p).
Proof. exact jacobi_prime. Qed.

(** For odd negative m the value is 0, whatever a is. *)
Theorem C08_jacobi_symbol_negative : forall a m, m < 0 -> Z.odd m = true -> jacobi_symbol a m = Ret 0.
Proof. exact jacobi_neg. Qed.

(** Quadratic reciprocity and the value at 2, as facts about the specification. *)
Theorem C08_reciprocity : forall p q, prime p -> prime q -> p <> 2 -> q <> 2 -> p <> q ->
  legendre p q * legendre q p = (-1) ^ ((p - 1) / 2 * ((q - 1) / 2)).
Proof.
  intros p q Hp Hq P2 Q2 N. pose proof (odd_prime p Hp (prime_odd p Hp P2)) as Ep. pose proof (odd_prime q Hq (prime_odd q Hq Q2)) as Eq. pose proof (prime_ge2 p Hp). pose proof (prime_ge2 q Hq).
  rewrite (reciprocity p q Hp Hq (prime_odd p Hp P2) (prime_odd q Hq Q2)). set (h := p / 2) in *. set (k := q / 2) in *. replace ((p - 1) / 2) with h by (apply Z.div_unique with 0; lia). replace ((q - 1) / 2) with k by (apply Z.div_unique with 0; lia).
  assert (U : legendre p q * legendre p q = 1). { destruct (legendre_cases p q) as [E|[E|E]]; rewrite E; try reflexivity. exfalso. apply legendre_zero in E; [|lia]. apply prime_div_prime in E; auto. }
  replace (legendre p q * (sgn4 q p * legendre p q)) with (sgn4 q p * (legendre p q * legendre p q)) by ring. rewrite U, Z.mul_1_r. rewrite neg1_cases by nia. unfold sgn4. rewrite Z.odd_mul, andb_comm.
  assert (M : forall p h, p = 2 * h + 1 -> (p mod 4 =? 3) = Z.odd h).
  { clear. intros p h ->. destruct (Z.Even_or_Odd h) as [(c & ->)|(c & ->)].
    - replace (2 * (2 * c) + 1) with (1 + c * 4) by ring. rewrite Z_mod_plus_full, Z.odd_mul. reflexivity.
    - replace (2 * (2 * c + 1) + 1) with (3 + c * 4) by ring. rewrite Z_mod_plus_full, Z.odd_add, Z.odd_mul. reflexivity. }
  rewrite (M q k Eq), (M p h Ep). reflexivity.
Qed.

Example C08_ex : factorization 45 [(3, 2); (5, 1)] /\ jacobi_symbol 2 45 = Ret (-1) /\ jacobi 2 [(3, 2); (5, 1)] = -1 /\
  jacobi_symbol 1001 9907 = Ret (-1) /\ jacobi_symbol 3 9 = Ret 0 /\ jacobi_symbol 5 12 = Raise ValueError.
Proof.
  split; [|repeat split; vm_compute; reflexivity]. split; [repeat constructor|]. split; [|reflexivity]. intros p e [E|[E|[]]]; injection E as <- <-; (split; [|lia]); [exact prime_3|].
  apply prime_intro; [lia|]. intros k Hk. apply Zgcd_1_rel_prime. assert (k = 1 \/ k = 2 \/ k = 3 \/ k = 4) as [-> |[-> |[-> | ->]]] by lia; reflexivity.
Qed.

(** ** C15: the Solovay-Strassen test *)
(** A prime is never rejected, whatever base is drawn. *)
Theorem C15_solovay_strassen_prime : forall n a, prime n -> n <> 2 -> 0 < a < n -> solovay_strassen n a = Ret true.
Proof. intros n a Hn N2 Ha. apply solovay_prime; [exact Hn|exact N2|]. intros D. apply Z.divide_pos_le in D; lia. Qed.

(** The exact answer for odd n: the base is a unit that satisfies Euler's criterion for the Jacobi symbol. *)
Theorem C15_solovay_strassen : forall n a l, 1 < n -> Z.odd n = true -> factorization n l ->
  exists b, solovay_strassen n a = Ret b /\ (b = true <-> jacobi a l <> 0 /\ (n | a ^ ((n - 1) / 2) - jacobi a l)).
Proof.
  intros n a l Hn O F. unfold solovay_strassen. rewrite (jacobi_symbol_ok a n l) by (try lia; assumption). cbn [bind]. destruct (Z.eqb_spec (jacobi a l) 0) as [E|N]; [exists false; split; [reflexivity|]; split; [discriminate|]; intros (K & _); contradiction|].
  unfold pymod, pow3. destruct (Z.eqb_spec n 0); [lia|]. cbn [bind]. eexists. split; [reflexivity|]. rewrite Z.eqb_eq, <- cg_div, cg_iff. split; [intros E; split; [exact N|congruence]|intros (_ & E); congruence].
Qed.

Example C15_solovay_ex : solovay_strassen 1729 2 = Ret true /\ solovay_strassen 1729 11 = Ret false /\ solovay_strassen 97 12 = Ret true.
Proof. vm_compute. auto. Qed.

(** ** C11: square roots modulo a prime *)
(** [lucky draw fuel p]: if p = 1 (mod 8) then one of the first [fuel] draws is a nonresidue. *)
Theorem C11_sqrts_mod_p : forall draw fuel a p, prime p -> lucky draw fuel p ->
  exists l, sqrts_mod_p draw fuel a p = Ret l /\ StronglySorted Z.lt l /\ forall x, In x l <-> 0 <= x < p /\ (p | x * x - a).
Proof.
  intros draw fuel a p Hp Lk. destruct (sqrts_mod_p_ok draw fuel a p Hp Lk) as (l & E & S & H). exists l. split; [exact E|]. split; [exact S|]. intros x. rewrite H, cg_div. reflexivity.
Qed.

(** Whatever was drawn, a result is right. *)
Theorem C11_sqrts_mod_p_sound : forall draw fuel a p l, prime p -> sqrts_mod_p draw fuel a p = Ret l ->
  StronglySorted Z.lt l /\ forall x, In x l <-> 0 <= x < p /\ (p | x * x - a).
Proof.
  intros draw fuel a p l Hp E. destruct (sqrts_mod_p_sound draw fuel a p l Hp E) as (S & H). split; [exact S|]. intros x. rewrite H, cg_div. reflexivity.
Qed.

Theorem C11_sqrts_mod_p_error : forall draw fuel a p, p < 2 -> sqrts_mod_p draw fuel a p = Raise ValueError.
Proof. intros draw fuel a p H. unfold sqrts_mod_p. destruct (Z.ltb_spec p 2); [reflexivity|lia]. Qed.

(** Half of the units are nonresidues, so the search for one is short. *)
Theorem C11_half_are_nonresidues : forall p, prime p -> p <> 2 ->
  Z.of_nat (length (filter (fun d => legendre d p =? -1) (zrange 1 p))) = (p - 1) / 2.
Proof.
  intros p Hp N2. pose proof (odd_prime p Hp (prime_odd p Hp N2)) as En. set (h := p / 2) in *. pose proof (p3 p h Hp En). replace ((p - 1) / 2) with h by (apply Z.div_unique with 0; lia).
  assert (B : forall b, Z.of_nat (length (filter (fun d => legendre d p =? b) (zrange 1 p))) <= h).
  { intros b. apply (power_roots p h b); [exact Hp|lia|apply NoDup_filter, zrange_NoDup|]. intros y Hy. apply filter_In in Hy as (Hy & Ey). apply zrange_In in Hy. apply Z.eqb_eq in Ey. split; [lia|]. rewrite (euler_criterion p h Hp En), Ey. reflexivity. }
  pose proof (B 1) as B1. pose proof (B (-1)) as B2.
  assert (T : forall l, (forall x, In x l -> 0 < x < p) -> Z.of_nat (length l) = Z.of_nat (length (filter (fun d => legendre d p =? 1) l)) + Z.of_nat (length (filter (fun d => legendre d p =? -1) l))).
  { induction l as [|x l IH]; intros Hl; [reflexivity|]. cbn [filter length]. rewrite Nat2Z.inj_succ, IH by (intros y Hy; apply Hl; right; exact Hy). destruct (legendre_cases x p) as [E|[E|E]]; [|rewrite E; cbn [Z.eqb Pos.eqb length]; lia..].
    exfalso. apply legendre_zero in E; [|lia]. pose proof (Hl x (or_introl eq_refl)). apply Z.divide_pos_le in E; lia. }
  specialize (T (zrange 1 p)). rewrite zrange_length in T. assert (K : forall x, In x (zrange 1 p) -> 0 < x < p) by (intros x Hx; apply zrange_In in Hx; lia). specialize (T K). lia.
Qed.

Example C11_ex : sqrts_mod_p (fun _ => 3) 1 13 17 = Ret [8; 9] /\ sqrts_mod_p (fun _ => 2) 0 5 29 = Ret [11; 18] /\ sqrts_mod_p (fun _ => 2) 0 2 7 = Ret [3; 4] /\ sqrts_mod_p (fun _ => 3) 1 3 17 = Ret [] /\
  sqrts_mod_p (fun i => if Nat.eqb i 0 then 4 else 5) 2 2 97 = Ret [14; 83] /\ sqrts_mod_p (fun _ => 4) 7 2 97 = Diverge.
Proof. vm_compute. repeat split; reflexivity. Qed.

(** ** C13: square roots modulo n and quadratic congruences *)
(** [lucky_for draw fuel n]: the draws are lucky for every prime divisor of n. *)
Theorem C13_sqrts_mod_n : forall fact draw fuel a n f, 2 <= n -> fac_arg fact n f -> lucky_for draw fuel n ->
  exists l, sqrts_mod_n fact draw fuel a n f = Ret l /\ StronglySorted Z.lt l /\ forall x, In x l <-> 0 <= x < n /\ (n | x * x - a).
Proof.
  intros fact draw fuel a n f Hn Hf Lk. destruct (sqrts_mod_n_ok fact draw fuel a n f Hn Hf Lk) as (l & E & S & H). exists l. split; [exact E|]. split; [exact S|]. intros x. rewrite H, cg_div. reflexivity.
Qed.

Theorem C13_sqrts_mod_n_small : forall rnd fuel draw fuel' a n, (1 <= fuel)%nat -> 2 <= n <= 10 ^ 12 -> lucky_for draw fuel' n ->
  exists l, sqrts_mod_n (factor_default rnd fuel) draw fuel' a n None = Ret l /\ StronglySorted Z.lt l /\ forall x, In x l <-> 0 <= x < n /\ (n | x * x - a).
Proof. intros rnd fuel draw fuel' a n Hf Hn Lk. apply C13_sqrts_mod_n; [lia|apply small_factors; [exact Hf|lia]|exact Lk]. Qed.

(** Modulo 1 the only residue, 0, is a square root; the code raises instead. *)
Theorem C13_sqrts_mod_n_refuted : forall rnd fuel draw fuel' a, (1 <= fuel)%nat ->
  (1 | 0 * 0 - a) /\ sqrts_mod_n (factor_default rnd fuel) draw fuel' a 1 None = Raise IndexError.
Proof.
  intros rnd fuel draw fuel' a Hf. split; [apply Z.divide_1_l|]. unfold sqrts_mod_n. destruct (small_fact rnd fuel Hf 1 ltac:(lia)) as (l & -> & F). cbn [bind]. destruct l as [|(p, e) l]; [reflexivity|]. exfalso. apply factorization_cons in F as (Hp & He & En & Fl & _). pose proof (factorization_pos _ _ Fl). pose proof (prime_ge2 p Hp). assert (p ^ 1 <= p ^ e) by (apply Z.pow_le_mono_r; lia). rewrite Z.pow_1_r in *. nia.
Qed.

(** All the solutions of a x^2 + b x + c = 0 (mod n), increasing. *)
Theorem C13_quadratic_congruence : forall fact draw fuel a b c n f, 2 <= n -> a <> 0 -> fac_arg fact n f ->
  (forall m, n <= m <= 4 * Z.abs a * n -> factors fact m) -> lucky_for draw fuel (4 * a * n) ->
  exists l, quadratic_congruence fact draw fuel (a, b, c) n f = Ret l /\ StronglySorted Z.lt l /\
    forall x, In x l <-> 0 <= x < n /\ (n | a * x * x + b * x + c).
Proof.
  intros fact draw fuel a b c n f Hn Ha Hf HF Lk. destruct (quadratic_congruence_ok fact draw fuel a b c n f Hn Ha Hf HF Lk) as (l & E & S & H). exists l. split; [exact E|]. split; [exact S|]. intros x. rewrite H, cg_0. reflexivity.
Qed.

Theorem C13_quadratic_congruence_small : forall rnd fuel draw fuel' a b c n, (1 <= fuel)%nat -> 2 <= n -> a <> 0 -> 4 * Z.abs a * n <= 10 ^ 12 -> lucky_for draw fuel' (4 * a * n) ->
  exists l, quadratic_congruence (factor_default rnd fuel) draw fuel' (a, b, c) n None = Ret l /\ StronglySorted Z.lt l /\
    forall x, In x l <-> 0 <= x < n /\ (n | a * x * x + b * x + c).
Proof.
  intros rnd fuel draw fuel' a b c n Hf Hn Ha L Lk. apply C13_quadratic_congruence; [exact Hn|exact Ha| | |exact Lk].
  - apply small_factors; [exact Hf|]. nia.
  - intros m Hm. apply small_factors; [exact Hf|]. lia.
Qed.

(** With a = 0 and n >= 2 the splitting loop never ends, whatever the number of rounds. *)
Theorem C13_quadratic_congruence_refuted : forall fact draw fuel b c n f, 2 <= n -> fac_arg fact n f ->
  (forall rounds, run (split_step n) rounds (1, 0, n) = Diverge) /\ quadratic_congruence fact draw fuel (0, b, c) n f = Diverge.
Proof.
  intros fact draw fuel b c n f Hn Hf. assert (D : forall rounds, run (split_step n) rounds (1, 0, n) = Diverge).
  { intros rounds. apply (run_never _ (fun s => let '(a1, a2, d) := s in a2 = 0 /\ d = n)); [|auto]. intros ((a1, a2), d) (-> & ->). unfold split_step. destruct (Z.ltb_spec 1 n); [|lia]. rewrite C01_gcd, Z.div_0_l, Z.gcd_0_r, Z.abs_eq by lia. eexists. split; [reflexivity|]. cbv beta iota. split; reflexivity. }
  split; [exact D|]. unfold quadratic_congruence. assert (E : exists l, match f with Some l => Ret l | None => fact n end = Ret l) by (destruct f as [l|]; [exists l; auto|destruct Hf as (l & E & _); exists l; exact E]). destruct E as (l & ->). cbn [bind]. rewrite C01_gcd, Z.mul_0_r, Z.gcd_0_l, Z.abs_eq by lia. cbn [bind]. destruct (Z.eqb_spec n 1); [lia|]. rewrite C01_gcd, Z.mul_0_r, Z.gcd_0_r, Z.abs_eq by lia. cbn [bind]. rewrite D. reflexivity.
Qed.

Example C13_ex rnd : sqrts_mod_n (factor_default rnd 1) (fun _ _ => 3) 1 1 40 None = Ret [1; 9; 11; 19; 21; 29; 31; 39] /\
  sqrts_mod_n (factor_default rnd 1) (fun _ _ => 3) 1 13 (17 * 3) None = Ret [8; 25; 26; 43] /\ sqrts_mod_n (factor_default rnd 1) (fun _ _ => 3) 1 0 27 None = Ret [0; 9; 18] /\
  quadratic_congruence (factor_default rnd 1) (fun _ _ => 3) 1 (3, -2, 5) 12 None = Ret [] /\
  quadratic_congruence (factor_default rnd 1) (fun _ _ => 3) 1 (2, 1, -3) 14 None = Ret [1; 9].
Proof. vm_compute. repeat split; reflexivity. Qed.

(** ** C12: Fibonacci primitive roots *)
Theorem C12_fibonacci_primitive_roots : forall fact draw fuel p, prime p -> factors fact (p - 1) -> lucky (draw p) fuel p ->
  exists l, fibonacci_primitive_roots fact draw fuel p = Ret l /\ StronglySorted Z.lt l /\
    forall g, In g l <-> 0 <= g < p /\ primitive p g /\ (p | g * g - (g + 1)).
Proof.
  intros fact draw fuel p Hp HF Lk. destruct (fibonacci_ok fact draw fuel p Hp HF Lk) as (l & E & S & H). exists l. split; [exact E|]. split; [exact S|]. intros g. rewrite H, cg_div. reflexivity.
Qed.

Example C12_fibonacci_ex rnd : fibonacci_primitive_roots (factor_default rnd 1) (fun _ _ => 3) 1 11 = Ret [8] /\ fibonacci_primitive_roots (factor_default rnd 1) (fun _ _ => 3) 1 41 = Ret [7; 35].
Proof. vm_compute. repeat split; reflexivity. Qed.

Print Assumptions C08_jacobi_symbol.
Print Assumptions C08_jacobi_symbol_even.
Print Assumptions C08_reciprocity.
Print Assumptions C15_solovay_strassen_prime.
Print Assumptions C15_solovay_strassen.
Print Assumptions C11_sqrts_mod_p.
Print Assumptions C11_sqrts_mod_p_sound.
Print Assumptions C11_half_are_nonresidues.
Print Assumptions C13_sqrts_mod_n.
Print Assumptions C13_sqrts_mod_n_refuted.
Print Assumptions C13_quadratic_congruence.
Print Assumptions C13_quadratic_congruence_refuted.
Print Assumptions C12_fibonacci_primitive_roots.
