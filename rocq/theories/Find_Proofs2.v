(** * lehman, Pollard's p-1 and rho *)
From Coq Require Import ZArith List Bool Lia Znumtheory Zpow_facts Permutation.
From Verif Require Import Base Py Loop Core_Model Core_Spec Core_Proofs Core_Props NT NT_Euler NT_Cong Float2_Proofs TrialDiv_Model Primality_Spec
  Primality_Model Sieves_Model Primes_Spec Primes_Props Factor_Model Factor_Spec Factor_Proofs Div_Proofs Arith_Spec Arith_Proofs Rho_Proofs Tab_Proofs Find_Model Find_Proofs.
Import ListNotations.
Open Scope Z_scope.

(** ** lehman *)
Lemma align_ge fuel m rm a : a <= align fuel m rm a.
Proof. revert a. induction fuel as [|f IH]; intros a; cbn [align]; [lia|]. destruct (a mod m =? rm); [lia|]. specialize (IH (a + 1)). lia. Qed.

Lemma lehman_k_ok n B k : 1 <= n -> 0 <= B -> 1 <= k ->
  exists r, lehman_k n B k = Ret r /\ match r with Some g => exists a b, 0 <= a /\ 0 <= b <= B /\ a * a - b * b = 4 * k * n /\ g = Z.gcd (a + b) n | None => True end.
Proof.
  intros Hn HB Hk. unfold lehman_k. destruct (if k mod 2 =? 0 then (1, 2) else (k + n, 4)) as [r m] eqn:E.
  assert (Hm : 2 <= m) by (destruct (k mod 2 =? 0); injection E as <- <-; lia). clear E. cbv zeta.
  destruct (C04_integer_sqrt_near (4 * k * n) ltac:(nia)) as (a0 & -> & Ha0). pose proof (Z.sqrt_nonneg (4 * k * n)). cbn [bind].
  set (a1 := align (Z.to_nat m) m (r mod m) a0). assert (Ha1 : 0 <= a1) by (pose proof (align_ge (Z.to_nat m) m (r mod m) a0); unfold a1; lia). clearbody a1.
  set (ub := 4 * k * n + B ^ 2). assert (Hub : 0 <= ub) by (unfold ub; rewrite Z.pow_2_r; nia).
  refine (run_rule _ (fun a => 0 <= a) (fun a => Z.max 0 (ub + 1 - a)) (fun o => exists r, o = Ret r /\ match r with Some g => exists a b, 0 <= a /\ 0 <= b <= B /\ a * a - b * b = 4 * k * n /\ g = Z.gcd (a + b) n | None => True end) _ _ a1 Ha1 _);
    [|pose proof (bits_spec (ub + 2)); pose proof (bits_spec (ub + 1)); lia].
  intros a Ha. unfold lehman_step. destruct (Z.leb_spec (4 * k * n) (a * a)) as [L|L]; cbn [andb]; [|exists None; split; [reflexivity|exact I]].
  destruct (Z.leb_spec (a * a) ub) as [L2|L2]; [|exists None; split; [reflexivity|exact I]].
  destruct (square_test (a * a - 4 * k * n) ltac:(lia)) as (b & -> & Hb & _). cbv zeta. destruct (Z.eqb_spec (b * b) (a * a - 4 * k * n)) as [Eb|].
  - rewrite gcd_correct. cbn [bind]. eexists. split; [reflexivity|]. exists a, b. split; [exact Ha|]. unfold ub in L2. rewrite Z.pow_2_r in L2. split; [|split; [lia|reflexivity]]. clear - Hb HB Eb L2. nia.
  - split; [lia|]. assert (a <= ub) by (clear - Ha L2; nia). lia.
Qed.

Lemma lehman_found n B k a b : 13 <= n -> 0 <= B -> B ^ 3 <= n -> 1 <= k <= B -> 0 <= a -> 0 <= b <= B -> a * a - b * b = 4 * k * n -> 1 < Z.gcd (a + b) n < n.
Proof.
  intros Hn HB HB3 Hk Ha Hb E.
  assert (H6 : 6 * B < n). { change 3 with (Z.succ (Z.succ (Z.succ 0))) in HB3. rewrite !Z.pow_succ_r, Z.pow_0_r, Z.mul_1_r in HB3 by lia. clear - Hn HB HB3. destruct (Z_lt_le_dec B 3) as [L|L]; nia. }
  assert (Hab : b < a). { clear - E Ha Hb Hk Hn. assert (0 < k * n) by nia. nia. }
  assert (Hs : a + b < n).
  { destruct (Z_lt_le_dec (a + b) n) as [|G]; [assumption|exfalso]. assert (n - B <= a) by lia. assert ((n - B) * (n - B) <= a * a) by nia. assert (b * b <= B * B) by nia. assert (4 * k * n <= 4 * B * n) by nia. assert (6 * B * n < n * n) by (apply Z.mul_lt_mono_pos_r; lia). clear - H3 H0 H1 H2 E. lia. }
  assert (D : (n | (a - b) * (a + b))) by (exists (4 * k); lia).
  pose proof (Z.gcd_nonneg (a + b) n) as G0. pose proof (Z.gcd_divide_l (a + b) n) as Gl. pose proof (Z.gcd_divide_r (a + b) n) as Gr.
  split.
  - destruct (Z.eq_dec (Z.gcd (a + b) n) 0) as [X|X]; [apply Z.gcd_eq_0_r in X; lia|]. destruct (Z.eq_dec (Z.gcd (a + b) n) 1) as [Y|Y]; [|lia].
    exfalso. rewrite Z.mul_comm in D. apply Z.gauss in D; [|rewrite Z.gcd_comm; exact Y]. apply Z.divide_pos_le in D; lia.
  - apply Z.divide_pos_le in Gl; lia.
Qed.

Lemma lehman_small n : 2 <= n < 13 -> exists d, lehman n = Ret d /\ (d | n) /\ 1 < d.
Proof.
  intros H. assert (C : forallb (fun n => match lehman n with Ret d => (n mod d =? 0) && (1 <? d) | _ => false end) (zrange 2 13) = true) by (vm_compute; reflexivity).
  rewrite forallb_forall in C. specialize (C n ltac:(apply zrange_In; lia)). destruct (lehman n) as [d| |]; try discriminate. apply andb_true_iff in C as [C1 C2]. apply Z.eqb_eq in C1. apply Z.ltb_lt in C2. exists d. split; [reflexivity|]. split; [apply Z.mod_divide; lia|lia].
Qed.

Lemma lehman_ok n : 2 <= n -> exists d, lehman n = Ret d /\ (d | n) /\ 1 < d /\
  (forall q, prime q -> (q | n) -> q ^ 3 <= n -> d <= q).
Proof.
  intros Hn. unfold lehman. destruct (C04_integer_nth_root 3 n ltac:(lia) ltac:(lia) ltac:(lia)) as (B & EB & HB & HB1 & HB2).
  assert (Eq : forall q, 0 <= q -> q ^ 3 <= n -> q <= B). { intros q Hq H3. destruct (Z_lt_le_dec B q) as [L|L]; [|exact L]. assert ((B + 1) ^ 3 <= q ^ 3) by (apply Z.pow_le_mono_l; lia). lia. }
  destruct (C20_trial_division_bound n B) as (d & Ed & Hd). rewrite EB. cbn [bind]. rewrite Ed. cbn [bind].
  destruct (Z.ltb_spec d n) as [L|L].
  - exists d. split; [reflexivity|]. destruct Hd as [((Pd & Dd & Md) & _)|(-> & _)]; [|lia]. pose proof (prime_ge2 d Pd). split; [exact Dd|]. split; [lia|]. intros q Pq Dq _. apply Md; assumption.
  - assert (Nq : forall q, prime q -> (q | n) -> q ^ 3 <= n -> q = n).
    { intros q Pq Dq H3. pose proof (prime_ge2 q Pq). pose proof (Z.divide_pos_le q n ltac:(lia) Dq). destruct Hd as [((Pd & Dd & Md) & _)|(_ & N)].
      - specialize (Md q Pq Dq). lia.
      - exfalso. apply (N q Pq); [apply Eq; lia|exact Dq]. }
    destruct (Z_lt_le_dec n 13) as [S|S].
    { assert (F : exists d', first_some (lehman_k n B) (zrange 1 (B + 1)) = Ret d' /\ match d' with Some g => (g | n) /\ 1 < g | None => True end).
      { destruct (lehman_small n ltac:(lia)) as (d' & E' & H'). unfold lehman in E'. rewrite EB in E'. cbn [bind] in E'. rewrite Ed in E'. cbn [bind] in E'. destruct (Z.ltb_spec d n); [lia|].
        destruct (first_some (lehman_k n B) (zrange 1 (B + 1))) as [r| |]; try discriminate. exists r. split; [reflexivity|]. cbn [bind] in E'. destruct r as [g|]; [|exact I]. injection E' as ->. exact H'. }
      destruct F as (r & -> & Hr). cbn [bind]. eexists. split; [reflexivity|]. destruct r as [g|]; [destruct Hr as [H1 H2]; split; [exact H1|]; split; [exact H2|]; intros q Pq Dq H3; rewrite (Nq q Pq Dq H3); apply Z.divide_pos_le; [lia|exact H1]|].
      split; [apply Z.divide_refl|]. split; [lia|]. intros q Pq Dq H3. rewrite (Nq q Pq Dq H3). lia. }
    destruct (first_some_spec (lehman_k n B) (fun k r => match r with Some g => 1 < g < n /\ (g | n) | None => True end) (zrange 1 (B + 1))) as (r & Er & Hr).
    { intros k Hk%zrange_In. destruct (lehman_k_ok n B k ltac:(lia) ltac:(lia) ltac:(lia)) as (r & E & Hr). exists r. split; [exact E|]. destruct r as [g|]; [|exact I]. destruct Hr as (a & b & Ha & Hb & E2 & ->). split; [|apply Z.gcd_divide_r]. apply (lehman_found n B k); try assumption; lia. }
    rewrite Er. cbn [bind]. eexists. split; [reflexivity|]. destruct r as [g|].
    + destruct Hr as (_ & _ & _ & _ & (H1 & H2) & _). split; [exact H2|]. split; [lia|]. intros q Pq Dq H3. rewrite (Nq q Pq Dq H3). lia.
    + split; [apply Z.divide_refl|]. split; [lia|]. intros q Pq Dq H3. rewrite (Nq q Pq Dq H3). lia.
Qed.

(** ** Pollard's p - 1 *)
Lemma powers_loop limit p L : 2 <= p <= limit -> exists k, 1 <= k /\ p ^ k <= limit < p ^ (k + 1) /\
  run (powers_step limit p) (bits limit) (p, L) = Ret (L ++ map (fun j => (p ^ j, p)) (zrange 1 (k + 1))).
Proof.
  intros Hp.
  refine (run_rule _ (fun s => exists k, 0 <= k /\ (1 <= k -> p ^ k <= limit) /\ s = (p ^ (k + 1), L ++ map (fun j => (p ^ j, p)) (zrange 1 (k + 1)))) (fun s => Z.max 0 (limit + 1 - fst s))
    (fun o => exists k, 1 <= k /\ p ^ k <= limit < p ^ (k + 1) /\ o = Ret (L ++ map (fun j => (p ^ j, p)) (zrange 1 (k + 1)))) _ _ _ _ _).
  - intros s (k & Hk & Hl & ->). cbn [powers_step fst]. destruct (Z.leb_spec (p ^ (k + 1)) limit) as [C|C].
    + split.
      * exists (k + 1). split; [lia|]. split; [lia|]. f_equal; [rewrite (Z.pow_add_r p (k + 1) 1), Z.pow_1_r by lia; reflexivity|]. rewrite (zrange_snoc 1 (k + 1)), map_app, app_assoc by lia. reflexivity.
      * pose proof (pow_ge2 p (k + 1) ltac:(lia) ltac:(lia)). cbn [fst]. nia.
    + exists k. assert (1 <= k). { destruct (Z.eq_dec k 0) as [->|]; [|lia]. rewrite Z.pow_1_r in C. lia. } split; [exact H|]. split; [split; [apply Hl; exact H|exact C]|reflexivity].
  - exists 0. split; [lia|]. split; [lia|]. rewrite Z.pow_1_r. rewrite zrange_nil by lia. cbn [map]. rewrite app_nil_r. reflexivity.
  - cbn [fst]. pose proof (bits_spec limit). lia.
Qed.

Lemma zprod_snd_powers p k : 0 <= k -> zprod (map snd (map (fun j : Z => (p ^ j, p)) (zrange 1 (k + 1)))) = p ^ k.
Proof.
  intros Hk. pattern k. apply natlike_ind; [reflexivity| |exact Hk]. intros j Hj IH. unfold Z.succ. rewrite (zrange_snoc 1 (j + 1)), !map_app, zprod_app, IH by lia. cbn [map zprod fold_right snd]. rewrite Z.pow_add_r, Z.pow_1_r by lia. unfold zprod. cbn [fold_right]. ring.
Qed.

Lemma pow_list_ok limit ps : (forall p, In p ps -> 2 <= p <= limit) -> exists L, foldM (fun pow_list p => run (powers_step limit p) (bits limit) (p, pow_list)) ps [] = Ret L /\
  (forall x, In x L -> 2 <= snd x) /\ forall p e, In p ps -> 0 <= e -> p ^ e <= limit -> (p ^ e | zprod (map snd L)).
Proof.
  intros H. apply (foldM_inv (fun pow_list p => run (powers_step limit p) (bits limit) (p, pow_list)) (fun pre L => (forall x, In x L -> 2 <= snd x) /\ forall p e, In p pre -> 0 <= e -> p ^ e <= limit -> (p ^ e | zprod (map snd L)))).
  - split; [intros x []|intros p e []].
  - intros pre p post L E [H1 H2]. assert (Hp : 2 <= p <= limit) by (apply H; rewrite E; apply in_elt). destruct (powers_loop limit p L Hp) as (k & Hk & Hl & ->). eexists. split; [reflexivity|]. split.
    + intros x [Hx|Hx]%in_app_iff; [apply H1; exact Hx|]. apply in_map_iff in Hx as (j & <- & _). cbn [snd]. lia.
    + intros q e Hq He Hle. rewrite map_app, zprod_app. apply in_app_iff in Hq as [Hq|[<-|[]]]; [apply Z.divide_mul_l, H2; assumption|].
      apply Z.divide_mul_r. rewrite zprod_snd_powers by lia. assert (e <= k). { destruct (Z_lt_le_dec k e) as [X|X]; [|exact X]. assert (p ^ (k + 1) <= p ^ e) by (apply Z.pow_le_mono_r; lia). lia. }
      exists (p ^ (k - e)). rewrite <- Z.pow_add_r by lia. f_equal. lia.
Qed.

Lemma loop_ok n l : 1 <= n -> (forall x, In x l -> 2 <= snd x) -> forall count c, exists g, p_minus_1_loop n count l c = Ret g /\ (g | n) /\ 1 <= g /\
  (1 < g \/ exists c', cg n c' (c ^ zprod (map snd l)) /\ g = Z.gcd (c' - 1) n).
Proof.
  intros Hn. assert (G : forall c, 1 <= Z.gcd c n). { intros c. pose proof (Z.gcd_nonneg c n). destruct (Z.eq_dec (Z.gcd c n) 0) as [X|X]; [apply Z.gcd_eq_0_r in X; lia|lia]. }
  induction l as [|[pk p] l IH]; intros Hl count c; cbn [p_minus_1_loop].
  - rewrite gcd_correct. eexists. split; [reflexivity|]. split; [apply Z.gcd_divide_r|]. split; [apply G|]. right. exists c. split; [|reflexivity]. cbn [map zprod fold_right]. rewrite Z.pow_1_r. reflexivity.
  - unfold pow3. destruct (Z.eqb_spec n 0); [lia|]. cbn [bind]. rewrite Zpow_mod_correct by lia.
    assert (Hl' : forall x, In x l -> 2 <= snd x) by (intros x Hx; apply Hl; right; exact Hx). assert (Hp : 2 <= p) by (apply (Hl (pk, p)); left; reflexivity).
    assert (Z0 : 0 <= zprod (map snd l)). { clear - Hl'. induction l as [|x l IH]; [cbn; lia|]. cbn [map zprod fold_right]. fold (zprod (map snd l)). specialize (Hl' x (or_introl eq_refl)) as Hx. assert (0 <= zprod (map snd l)) by (apply IH; intros y Hy; apply Hl'; right; exact Hy). nia. }
    assert (R : exists g, p_minus_1_loop n (count + 1) l (c ^ p mod n) = Ret g /\ (g | n) /\ 1 <= g /\ (1 < g \/ exists c', cg n c' (c ^ zprod (map snd ((pk, p) :: l))) /\ g = Z.gcd (c' - 1) n)).
    { destruct (IH Hl' (count + 1) (c ^ p mod n)) as (g & E & Dg & G1 & Hg). exists g. split; [exact E|]. split; [exact Dg|]. split; [exact G1|]. destruct Hg as [Hg|(c' & Hc & ->)]; [left; exact Hg|right]. exists c'. split; [|reflexivity].
      rewrite Hc. rewrite cg_mod. cbn [map snd zprod fold_right]. fold (zprod (map snd l)). rewrite <- Z.pow_mul_r by lia. reflexivity. }
    destruct (count mod 100 =? 0); [|exact R]. rewrite gcd_correct. cbn [bind]. destruct (Z.ltb_spec 1 (Z.gcd (c ^ p mod n - 1) n)) as [L|L]; cbn [andb]; [|exact R].
    destruct (Z.ltb_spec (Z.gcd (c ^ p mod n - 1) n) n) as [L2|L2]; [|exact R]. eexists. split; [reflexivity|]. split; [apply Z.gcd_divide_r|]. split; [lia|]. left. exact L.
Qed.

Lemma smooth_divides m M l : factorization m l -> (forall q e, In (q, e) l -> (q ^ e | M)) -> (m | M).
Proof.
  revert m. induction l as [|[q e] l IH]; intros m F H.
  - destruct F as (_ & _ & V). unfold fac_value in V. cbn in V. subst m. apply Z.divide_1_l.
  - apply factorization_cons in F as (Pq & He & E & F & Lt). rewrite E.
    pose proof (IH (fac_value l) F ltac:(intros; apply H; right; assumption)) as D1. pose proof (H q e (or_introl eq_refl)) as D2.
    assert (G : Z.gcd (q ^ e) (fac_value l) = 1). { pose proof (coprime_rest q l Pq F Lt) as G. apply gcd_1_pow; [lia|exact G]. }
    destruct D2 as [x Ex]. rewrite Ex in D1. rewrite Z.mul_comm in D1. apply Z.gauss in D1; [|rewrite Z.gcd_comm; exact G]. destruct D1 as [y Ey]. exists y. rewrite Ex, Ey. ring.
Qed.

Lemma prime_13 : prime 13.
Proof. constructor; [lia|]. intros k Hk. apply Zgcd_1_rel_prime. assert (k = 1 \/ k = 2 \/ k = 3 \/ k = 4 \/ k = 5 \/ k = 6 \/ k = 7 \/ k = 8 \/ k = 9 \/ k = 10 \/ k = 11 \/ k = 12) as H by lia. repeat (destruct H as [-> |H]; [reflexivity|]). subst. reflexivity. Qed.

Lemma pollard_p_minus_1_ok n limit : 1 <= n -> exists g, pollard_p_minus_1 n limit = Ret g /\ (g | n) /\ 1 <= g /\
  forall p, prime p -> (p | n) -> p <> 13 -> (forall q e, prime q -> 1 <= e -> (q ^ e | p - 1) -> q ^ e <= limit) -> 1 < g.
Proof.
  intros Hn. unfold pollard_p_minus_1. destruct (C14_primes limit) as (ps & -> & Hps). cbn [bind].
  destruct Hps as [Sps Hps].
  destruct (pow_list_ok limit ps) as (L & -> & HL1 & HL2). { intros p Hp. apply Hps in Hp as [Pp Hp]. pose proof (prime_ge2 p Pp). lia. }
  cbn [bind]. pose proof (ksort_perm L) as PL.
  assert (E : zprod (map snd (ksort L)) = zprod (map snd L)) by (apply zprod_perm, Permutation_map, PL).
  destruct (loop_ok n (ksort L) Hn ltac:(intros x Hx; apply HL1; apply (Permutation_in _ PL), Hx) 0 13) as (g & Eg & Dg & G1 & Hg).
  exists g. split; [exact Eg|]. split; [exact Dg|]. split; [exact G1|]. intros p Pp Dp Np Sm. destruct Hg as [Hg|(c & Hc & ->)]; [exact Hg|].
  rewrite E in Hc. pose proof (prime_ge2 p Pp) as P2.
  assert (DM : (p - 1 | zprod (map snd L))).
  { destruct (fac_exists (p - 1) ltac:(lia)) as (l & F). apply (smooth_divides _ _ l F). intros q e Hq. pose proof F as F'. destruct F as (_ & A & V). destruct (A q e Hq) as [Pq He].
    assert (Dq : (q ^ e | p - 1)). { rewrite <- V. clear - Hq. unfold fac_value. induction l as [|[a b] l IH]; [contradiction|]. cbn [map zprod fold_right]. destruct Hq as [[= -> ->]|Hq]; [apply Z.divide_factor_l|apply Z.divide_mul_r, IH, Hq]. }
    specialize (Sm q e Pq He Dq). apply HL2; [|lia|exact Sm]. apply Hps. split; [exact Pq|]. pose proof (prime_ge2 q Pq). assert (q ^ 1 <= q ^ e) by (apply Z.pow_le_mono_r; lia). rewrite Z.pow_1_r in H0. lia. }
  assert (D : (p | c - 1)).
  { apply cg_div. rewrite (cg_weaken n p _ _ Dp Hc). destruct DM as [x Ex]. rewrite Ex, Z.mul_comm. assert (0 <= x). { assert (0 <= zprod (map snd L)). { clear - HL1. induction L as [|x l IH]; [cbn; lia|]. cbn [map zprod fold_right]. fold (zprod (map snd l)). specialize (HL1 x (or_introl eq_refl)) as Hx. assert (0 <= zprod (map snd l)) by (apply IH; intros y Hy; apply HL1; right; exact Hy). nia. } nia. }
    rewrite Z.pow_mul_r by lia. apply cg_pow_1; [lia|]. constructor. rewrite NT_Euler.fermat; [rewrite Z.mod_1_l by lia; reflexivity|exact Pp|]. intros X. apply prime_div_prime in X; [congruence|exact Pp|]. exact prime_13. }
  assert (Dg' : (p | Z.gcd (c - 1) n)) by (apply Z.gcd_greatest; assumption). apply Z.divide_pos_le in Dg'; [lia|]. lia.
Qed.

(** ** Pollard's rho *)
Lemma gcd_ge1 c n : 1 <= n -> 1 <= Z.gcd c n.
Proof. intros Hn. pose proof (Z.gcd_nonneg c n). destruct (Z.eq_dec (Z.gcd c n) 0) as [X|X]; [apply Z.gcd_eq_0_r in X; lia|lia]. Qed.

Lemma rho_for_ok n a m : 4 <= n -> forall s, exists d, rho_for n a m s = Ret d /\ (d | n) /\ 1 < d.
Proof.
  intros Hn. induction m as [|m IH]; intros s; cbn [rho_for]; [exists n; split; [reflexivity|]; split; [apply Z.divide_refl|lia]|].
  destruct s as [[[k u] v] prod]. unfold rho_step. cbv zeta. rewrite gcd_correct. destruct (k mod 100 =? 0); [|apply IH].
  match goal with |- context[1 <? ?g] => destruct (Z.ltb_spec 1 g) as [L|L] end; [|apply IH].
  eexists. split; [reflexivity|]. split; [apply Z.gcd_divide_r|exact L].
Qed.

Lemma rho_meet n c y : 4 <= n -> exists K, (1 <= K)%nat /\ Z.of_nat K <= n /\ Nat.iter K (rho_next n c) y = Nat.iter (2 * K) (rho_next n c) y.
Proof.
  intros Hn. set (f := rho_next n c). destruct (pigeonhole (fun i => Nat.iter (S i) f y) n) as (i & j & Hij & Hj & E); [lia|intros i; apply (f_range n c Hn)|].
  set (l := (j - i)%nat). set (q := (i / l + 1)%nat). pose proof (Nat.div_mod i l ltac:(unfold l; lia)) as DM. pose proof (Nat.mod_upper_bound i l ltac:(unfold l; lia)) as MB.
  assert (HK : (q * l = i + (l - i mod l))%nat). { unfold q. rewrite Nat.mul_add_distr_r, (Nat.mul_comm (i / l)). lia. }
  assert (Hl : (1 <= l)%nat) by (unfold l; lia).
  exists (q * l)%nat. split; [lia|]. split; [unfold l in *; lia|].
  assert (P : Nat.iter l f (Nat.iter (q * l) f y) = Nat.iter (q * l) f y).
  { replace (q * l)%nat with ((q * l - S i) + S i)%nat by lia. rewrite (iter_add f (q * l - S i) (S i)), <- iter_add. replace (l + (q * l - S i))%nat with ((q * l - S i) + l)%nat by lia. rewrite (iter_add f (q * l - S i) l). f_equal. rewrite <- iter_add. replace (l + S i)%nat with (S j) by (unfold l; lia). symmetry. exact E. }
  replace (2 * (q * l))%nat with (q * l + q * l)%nat by lia. rewrite iter_add. symmetry. exact (period_mul n c l _ q P).
Qed.

Lemma rho_none_ok n a u : 4 <= n -> exists d, run (rho_step n a) (bits (n + 101)) (0, u, u, 1) = Ret d /\ (d | n) /\ 1 < d.
Proof.
  intros Hn. destruct (rho_meet n a u Hn) as (K & HK1 & HKn & EK). set (f := rho_next n a) in *.
  set (T := 100 * ((Z.of_nat K + 98) / 100)).
  assert (HT : Z.of_nat K - 1 <= T <= n + 98). { unfold T. pose proof (Z.div_mod (Z.of_nat K + 98) 100). pose proof (Z.mod_pos_bound (Z.of_nat K + 98) 100). lia. }
  assert (T100 : T mod 100 = 0) by (unfold T; rewrite Z.mul_comm; apply Z.mod_mul; lia). clearbody T.
  refine (run_rule _ (fun s => exists k prod, s = (Z.of_nat k, Nat.iter k f u, Nat.iter (2 * k) f u, prod) /\ Z.of_nat k <= T /\ ((K <= k)%nat -> prod = 0)) (fun s => T - fst (fst (fst s)))
    (fun o => exists d, o = Ret d /\ (d | n) /\ 1 < d) _ _ _ _ _).
  - intros s (k & prod & -> & HkT & H0). unfold rho_step. cbv zeta. change (rho_next n a) with f.
    change (f (Nat.iter k f u)) with (Nat.iter (S k) f u). change (f (f (Nat.iter (2 * k) f u))) with (Nat.iter (S (S (2 * k))) f u). replace (S (S (2 * k)))%nat with (2 * S k)%nat by lia.
    assert (Z0 : (K <= S k)%nat -> (prod * (Nat.iter (S k) f u - Nat.iter (2 * S k) f u)) mod n = 0).
    { intros H. destruct (Nat.eq_dec (S k) K) as [->|]; [rewrite EK, Z.sub_diag, Z.mul_0_r; apply Z.mod_0_l; lia|]. rewrite H0 by lia. apply Z.mod_0_l. lia. }
    set (prod' := (prod * (Nat.iter (S k) f u - Nat.iter (2 * S k) f u)) mod n) in *. clearbody prod'. rewrite gcd_correct.
    assert (G : (K <= S k)%nat -> Z.gcd prod' n = n) by (intros H; rewrite (Z0 H), Z.gcd_0_l; lia).
    destruct (Z.eqb_spec (Z.of_nat k mod 100) 0) as [E|E].
    + destruct (Z.ltb_spec 1 (Z.gcd prod' n)) as [L|L]; cbv beta iota; [ exists (Z.gcd prod' n); split; [reflexivity|]; split; [apply Z.gcd_divide_r|exact L]|].
      assert (X : ~ (K <= S k)%nat) by (intros H; specialize (G H); lia). split; [|cbn [fst]; lia]. exists (S k), 1. split; [f_equal; f_equal; f_equal; lia|]. split; [lia|]. intros H. exfalso. apply X, H.
    + assert (Z.of_nat k <> T) by (intros X; rewrite X in E; contradiction). split; [|cbn [fst]; lia]. exists (S k), prod'. split; [f_equal; f_equal; f_equal; lia|]. split; [lia|exact Z0].
  - exists 0%nat, 1. split; [reflexivity|]. split; lia.
  - cbn [fst]. pose proof (bits_spec (n + 101)). lia.
Qed.

Lemma pollard_rho_ok a u n it : 4 <= n -> exists d, pollard_rho a u n it = Ret d /\ (d | n) /\ 1 < d.
Proof.
  intros Hn. unfold pollard_rho. destruct (Z.ltb_spec (n - 3) 1); [lia|]. destruct it as [m|]; [apply rho_for_ok|apply rho_none_ok]; exact Hn.
Qed.
