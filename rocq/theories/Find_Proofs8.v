(** * cfrac (conclusion) *)
From Coq Require Import ZArith List Bool Lia Znumtheory Zpow_facts Sorted.
From Verif Require Import Base Py Sums Core_Model Core_Spec Core_Proofs Core_Props NT NT_Cong Primality_Model Primes_Spec Sieves_Model Primes_Props QR_Spec QR_Proofs Sqrt_Proofs2 Find_Model Find_Spec Find_Proofs Find_Proofs2 Find_Proofs3 Find_Proofs4 Find_Proofs5 Find_Proofs6 Find_Proofs7.
Import ListNotations.
Open Scope Z_scope.

(** ** The multiplier *)
Lemma prime_check p : 1 < p -> forallb (fun k => Z.gcd k p =? 1) (zrange 1 p) = true -> prime p.
Proof. intros Hp H. constructor; [exact Hp|]. intros k Hk. apply Zgcd_1_rel_prime. rewrite forallb_forall in H. apply Z.eqb_eq, H, zrange_In. lia. Qed.

Lemma multiplier_primes_prime p : In p multiplier_primes -> prime p /\ p <> 2.
Proof.
  intros H. assert (C : forallb (fun p => (1 <? p) && negb (p =? 2) && forallb (fun k => Z.gcd k p =? 1) (zrange 1 p)) multiplier_primes = true) by (vm_compute; reflexivity).
  rewrite forallb_forall in C. specialize (C p H). rewrite !andb_true_iff in C. destruct C as [[C1 C2] C3]. split; [apply prime_check; [apply Z.ltb_lt, C1|exact C3]|]. intros ->. discriminate.
Qed.

(** How many of the primes 3, ..., 31 have (kn|p) >= 0. *)
Definition mcount (kn : Z) : Z := Z.of_nat (length (filter (fun p => 0 <=? legendre kn p) multiplier_primes)).
Definition madm (kn : Z) : Prop := 0 <= legendre kn 3 /\ 0 <= legendre kn 5.

Lemma multiplier_count_ok kn : multiplier_count kn = Ret (mcount kn).
Proof.
  unfold multiplier_count. rewrite (filterM_ret _ (fun p => 0 <=? legendre kn p)); [reflexivity|]. intros p Hp. destruct (multiplier_primes_prime p Hp) as [P N]. rewrite jacobi_prime by assumption. reflexivity.
Qed.

Lemma cfrac_multiplier_ok n : exists k, cfrac_multiplier n = Ret k /\ 1 <= k < 1000 /\ madm (k * n) /\
  forall j, 1 <= j < 1000 -> madm (j * n) -> mcount (j * n) < mcount (k * n) \/ (mcount (j * n) = mcount (k * n) /\ k <= j).
Proof.
  unfold cfrac_multiplier.
  destruct (foldM_range (multiplier_step n) (fun k best => match best with
    | None => forall j, 1 <= j < k -> ~ madm (j * n)
    | Some (c, k0) => 1 <= k0 < k /\ madm (k0 * n) /\ c = mcount (k0 * n) /\ forall j, 1 <= j < k -> madm (j * n) -> mcount (j * n) < c \/ (mcount (j * n) = c /\ k0 <= j) end) 1 1000 None) as (best & E & H).
  - lia.
  - intros j Hj. lia.
  - intros k best Hk IH. unfold multiplier_step. assert (M3 : prime 3 /\ 3 <> 2) by (apply multiplier_primes_prime; left; reflexivity). assert (M5 : prime 5 /\ 5 <> 2) by (apply multiplier_primes_prime; right; left; reflexivity).
    rewrite (jacobi_prime (k * n) 3) by apply M3. cbn [bind].
    assert (Skip : ~ madm (k * n) -> exists s', Ret best = Ret s' /\ match s' with
      | None => forall j, 1 <= j < k + 1 -> ~ madm (j * n)
      | Some (c, k0) => 1 <= k0 < k + 1 /\ madm (k0 * n) /\ c = mcount (k0 * n) /\ forall j, 1 <= j < k + 1 -> madm (j * n) -> mcount (j * n) < c \/ (mcount (j * n) = c /\ k0 <= j) end).
    { intros N. exists best. split; [reflexivity|]. destruct best as [[c k0]|].
      - destruct IH as (I1 & I2 & I3 & I4). split; [lia|]. split; [exact I2|]. split; [exact I3|]. intros j Hj Ha. destruct (Z.eq_dec j k) as [->|]; [contradiction|]. apply I4; [lia|exact Ha].
      - intros j Hj. destruct (Z.eq_dec j k) as [->|]; [exact N|]. apply IH. lia. }
    destruct (Z.leb_spec 0 (legendre (k * n) 3)) as [L3|L3]; [|apply Skip; intros [A _]; lia].
    rewrite (jacobi_prime (k * n) 5) by apply M5. cbn [bind]. destruct (Z.leb_spec 0 (legendre (k * n) 5)) as [L5|L5]; [|apply Skip; intros [_ A]; lia].
    rewrite multiplier_count_ok. cbn [bind]. assert (A : madm (k * n)) by (split; assumption). destruct best as [[c k0]|].
    + destruct IH as (I1 & I2 & I3 & I4). destruct (Z.ltb_spec c (mcount (k * n))) as [L|L]; eexists; (split; [reflexivity|]).
      * split; [lia|]. split; [exact A|]. split; [reflexivity|]. intros j Hj Aj. destruct (Z.eq_dec j k) as [->|]; [right; split; lia|]. destruct (I4 j ltac:(lia) Aj) as [X|[X _]]; left; lia.
      * split; [lia|]. split; [exact I2|]. split; [exact I3|]. intros j Hj Aj. destruct (Z.eq_dec j k) as [->|]; [|apply I4; [lia|exact Aj]]. destruct (Z.eq_dec (mcount (k * n)) c); [right; split; lia|left; lia].
    + eexists. split; [reflexivity|]. split; [lia|]. split; [exact A|]. split; [reflexivity|]. intros j Hj Aj. destruct (Z.eq_dec j k) as [->|]; [right; split; lia|]. exfalso. apply (IH j ltac:(lia) Aj).
  - rewrite E. cbn [bind]. destruct best as [[c k0]|].
    + destruct H as (H1 & H2 & -> & H4). exists k0. split; [reflexivity|]. split; [exact H1|]. split; [exact H2|exact H4].
    + exfalso. apply (H 15 ltac:(lia)). unfold madm, legendre. replace (15 * n) with (5 * n * 3) by ring. rewrite Z.mod_mul by lia. replace (5 * n * 3) with (3 * n * 5) by ring. rewrite Z.mod_mul by lia. cbn. lia.
Qed.

(** ** Smoothness *)
Lemma strip_exists p q : prime p -> 0 < q -> exists e m, 0 <= e /\ q = p ^ e * m /\ ~ (p | m) /\ 0 < m.
Proof.
  intros Pp Hq. pose proof (prime_ge2 p Pp). destruct (Zdivide_dec p q) as [D|D].
  - destruct (strip_ok p q ltac:(lia) ltac:(lia) D) as (m & e & _ & He & E & N). exists e, m. split; [lia|]. split; [exact E|]. split; [exact N|]. assert (0 < p ^ e) by (apply Z.pow_pos_nonneg; lia). nia.
  - exists 0, q. split; [lia|]. split; [rewrite Z.pow_0_r; ring|]. split; assumption.
Qed.

Lemma smooth_exists ps : (forall p, In p ps -> prime p) -> forall q, 0 < q -> (forall r, prime r -> (r | q) -> In r ps) -> exists es, exponent_vector ps es /\ base_value ps es = q.
Proof.
  induction ps as [|p ps IH]; intros Hps q Hq H.
  - exists []. split; [split; [reflexivity|intros e []]|]. destruct (Z.eq_dec q 1) as [->|N]; [reflexivity|]. destruct (prime_divisor_exists q ltac:(lia)) as (r & Pr & Dr). destruct (H r Pr Dr).
  - destruct (strip_exists p q (Hps p (or_introl eq_refl)) Hq) as (e & m & He & E & N & Hm). destruct (IH ltac:(intros r Hr; apply Hps; right; exact Hr) m Hm) as (es & [L Hes] & V).
    { intros r Pr Dr. destruct (H r Pr) as [X|X]; [rewrite E; apply Z.divide_mul_r, Dr|subst r; contradiction|exact X]. }
    exists (e :: es). split; [split; [cbn [length]; congruence|intros x [<-|Hx]; [exact He|apply Hes, Hx]]|]. rewrite base_value_cons, V. symmetry. exact E.
Qed.

Lemma prime_div_pow r x e : prime r -> 0 <= e -> (r | x ^ e) -> (r | x).
Proof.
  intros Pr He. pattern e. apply natlike_ind; [|intros k Hk IH|exact He].
  - rewrite Z.pow_0_r. intros D. pose proof (prime_ge2 r Pr). apply Z.divide_1_r_nonneg in D; lia.
  - rewrite Z.pow_succ_r by exact Hk. intros D. apply prime_mult in D; [|exact Pr]. destruct D as [D|D]; [exact D|apply IH, D].
Qed.

Lemma prime_div_zprod r l : prime r -> (r | zprod l) -> exists x, In x l /\ (r | x).
Proof.
  intros Pr. induction l as [|y l IH]; intros D.
  - pose proof (prime_ge2 r Pr). apply Z.divide_1_r_nonneg in D; lia.
  - cbn [zprod fold_right] in D. apply prime_mult in D; [|exact Pr]. destruct D as [D|D]; [exists y; split; [left; reflexivity|exact D]|]. destruct (IH D) as (x & Hx & Dx). exists x. split; [right; exact Hx|exact Dx].
Qed.

Lemma batch_smooth ps q e : ps <> [] -> NoDup ps -> (forall p, In p ps -> prime p) -> q <> 0 -> 0 <= e -> forall w, pow3 (zprod (-1 :: ps)) e q = Ret w -> Z.gcd q w = q -> 0 < q /\
  forall q', q' = q \/ q' = - q -> exists es, smooth_factor q' (-1 :: ps) = Ret es /\ exponent_vector (-1 :: ps) es /\ base_value (-1 :: ps) es = q'.
Proof.
  intros Hne ND Hps Hq He w Ew G. assert (Q0 : 0 < q) by (pose proof (Z.gcd_nonneg q w); lia). split; [exact Q0|]. intros q' Hq'.
  unfold pow3 in Ew. destruct (Z.eqb_spec q 0); [contradiction|]. assert (Ew' : Zpow_mod (zprod (-1 :: ps)) e q = w) by congruence. rewrite Zpow_mod_correct in Ew' by exact Hq. subst w.
  assert (D : (q | zprod (-1 :: ps) ^ e)). { pose proof (Z.gcd_divide_r q (zprod (-1 :: ps) ^ e mod q)) as D. rewrite G in D. rewrite (Z.div_mod (zprod (-1 :: ps) ^ e) q Hq). apply Z.divide_add_r; [apply Z.divide_factor_l|exact D]. }
  destruct (smooth_exists ps Hps q Q0) as (es & [L Hes] & V).
  { intros r Pr Dr. assert (X : (r | zprod (-1 :: ps))) by (apply (prime_div_pow r _ e Pr He), (Z.divide_trans _ q); assumption). destruct (prime_div_zprod r _ Pr X) as (x & [<-|Hx] & Dx).
    - pose proof (prime_ge2 r Pr). apply Z.divide_opp_r in Dx. apply Z.divide_1_r_nonneg in Dx; lia.
    - rewrite (prime_div_prime r x Pr (Hps x Hx) Dx). exact Hx. }
  destruct (smooth_factor_ok q' (-1 :: ps)) as [R|[_ N]]; [exists ps; split; [right; reflexivity|]; split; [exact Hne|]; split; assumption|lia|exact R|].
  exfalso. destruct Hq' as [-> | ->].
  - apply (N (0 :: es)); [split; [cbn [length]; congruence|intros x [<-|Hx]; [lia|apply Hes, Hx]]|]. rewrite base_value_cons, V, Z.pow_0_r. ring.
  - apply (N (1 :: es)); [split; [cbn [length]; congruence|intros x [<-|Hx]; [lia|apply Hes, Hx]]|]. rewrite base_value_cons, V, Z.pow_1_r. ring.
Qed.

(** ** Collecting relations *)
Definition rel_inv (n : Z) (base : list Z) (M : list (list Z)) (a_list : list Z) : Prop :=
  length a_list = length M /\ (forall row, In row M -> exponent_vector base row) /\ forall j, (j < length M)%nat -> cg n (nth j a_list 0 * nth j a_list 0) (base_value base (nth j M [])).

Lemma rel_inv_snoc n base M a_list row a : rel_inv n base M a_list -> exponent_vector base row -> cg n (a * a) (base_value base row) -> rel_inv n base (M ++ [row]) (a_list ++ [a]).
Proof.
  intros (H1 & H2 & H3) Hr Hc. split; [rewrite !app_length; cbn [length]; lia|]. split; [intros r [X|[<-|[]]]%in_app_iff; [apply H2, X|exact Hr]|]. intros j Hj. rewrite app_length in Hj. cbn [length] in Hj. destruct (Nat.eq_dec j (length M)) as [->|].
  - rewrite nth_middle. rewrite <- H1, nth_middle. exact Hc.
  - rewrite !app_nth1 by lia. apply H3. lia.
Qed.

Lemma collect_ok n kn g e ps rounds gen : 2 <= kn -> (n | kn) -> (forall k, k * k <> kn) -> 0 <= e -> ps <> [] -> NoDup ps -> (forall p, In p ps -> prime p) -> aq_inv kn g gen ->
  let base := -1 :: ps in
  run (collect_step kn g (Z.of_nat (length base)) (zprod base) e base) rounds (gen, [], []) = Diverge \/
  exists M a_list, run (collect_step kn g (Z.of_nat (length base)) (zprod base) e base) rounds (gen, [], []) = Ret (M, a_list) /\ rel_inv n base M a_list /\ (length base < length M)%nat.
Proof.
  intros Hkn Dn Sq He Hne ND Hps Hg base.
  apply (run_partial (collect_step kn g (Z.of_nat (length base)) (zprod base) e base) (fun s => let '(gen, M, a_list) := s in aq_inv kn g gen /\ rel_inv n base M a_list) (fun o => exists M a_list, o = Ret (M, a_list) /\ rel_inv n base M a_list /\ (length base < length M)%nat)).
  - intros [[gen' M] a_list] [Hgen Hrel]. unfold collect_step. destruct (Z.leb_spec (Z.of_nat (length M)) (Z.of_nat (length base))) as [Len|Len]; [|exists M, a_list; split; [reflexivity|]; split; [exact Hrel|lia]].
    destruct gen' as [[[[[[i A0] a] Q0] q] P0] r0]. destruct (aq_step_ok kn g _ Hkn Sq Hgen) as (s' & Es & Hs' & _). rewrite Es. cbn [bind]. destruct Hgen as (Hi & _ & _ & Hq & Hc & _).
    destruct (pow3 (zprod base) e q) as [w| |] eqn:Ew; try (exfalso; unfold pow3 in Ew; destruct (Z.eqb_spec q 0); [contradiction|discriminate]). cbn [bind]. rewrite gcd_correct. cbn [bind]. destruct (Z.eqb_spec (Z.gcd q w) q) as [G|G]; cbn [negb]; [|split; assumption].
    destruct (batch_smooth ps q e Hne ND Hps Hq He w Ew G) as [Q0' Sm]. set (q' := if i mod 2 =? 1 then q * -1 else q).
    assert (Hq' : (q' = q \/ q' = - q) /\ q' = (-1) ^ i * q).
    { unfold q'. pose proof (Z.div_mod i 2 ltac:(lia)) as DM. assert (P2 : forall h, 0 <= h -> (-1) ^ (2 * h) = 1) by (intros h Hh; rewrite Z.pow_mul_r by lia; apply Z.pow_1_l; exact Hh). assert (0 <= i / 2) by (apply Z.div_pos; lia). pose proof (Z.mod_pos_bound i 2 ltac:(lia)).
      destruct (Z.eqb_spec (i mod 2) 1) as [X|X]; rewrite DM at 1.
      - rewrite X, Z.pow_add_r, P2, Z.pow_1_r by lia. split; [right|]; lia.
      - replace (i mod 2) with 0 by lia. rewrite Z.add_0_r, P2 by lia. split; [left|]; lia. }
    destruct Hq' as [Hq1 Hq2]. destruct (Sm q' Hq1) as (es & Ees & Hes & Ves). fold base in Ees, Hes, Ves. rewrite Ees. cbn [bind]. split; [exact Hs'|]. apply rel_inv_snoc; [exact Hrel|exact Hes|]. rewrite Ves, Hq2. apply (cg_weaken kn n _ _ Dn Hc).
  - split; [exact Hg|]. split; [reflexivity|]. split; [intros r []|]. intros j Hj. cbn in Hj. lia.
Qed.

Lemma exponent_loop n : exists e, run (exponent_step n) (bits n) 1 = Ret e /\ 1 <= e /\ n <= 2 ^ e.
Proof.
  refine (run_rule _ (fun e => 1 <= e) (fun e => Z.max 0 (n - 2 ^ e)) (fun o => exists e, o = Ret e /\ 1 <= e /\ n <= 2 ^ e) _ _ _ _ _).
  - intros e He. unfold exponent_step. destruct (Z.ltb_spec (2 ^ e) n) as [L|L]; [|exists e; split; [reflexivity|split; assumption]]. split; [lia|].
    assert (2 ^ e < 2 ^ (e * 2)) by (apply Z.pow_lt_mono_r; lia). lia.
  - lia.
  - pose proof (bits_spec n). assert (0 < 2 ^ Z.of_nat (bits n)) by (apply Z.pow_pos_nonneg; lia). change (2 ^ 1) with 2. lia.
Qed.

(** [small_part]: what happens before the multiplier matters. *)
Lemma cfrac_ok B rounds n k kk : 2 <= n -> 2 <= B n -> 1 <= kk -> (k = Some kk \/ (k = None /\ cfrac_multiplier n = Ret kk)) -> (forall m, m * m <> kk * n) ->
  cfrac B rounds n k = Diverge \/ cfrac B rounds n k = Ret None \/ exists d, cfrac B rounds n k = Ret (Some d) /\ (d | n) /\ 1 < d /\ (d = n -> prime n).
Proof.
  intros Hn HB Hkk Hk Sq. unfold cfrac. destruct (C14_primes (B n)) as (pl & -> & Sp & Hp). cbn [bind].
  assert (Ek : match k with Some k => Ret k | None => cfrac_multiplier n end = Ret kk) by (destruct Hk as [-> |[-> E]]; [reflexivity|exact E]). rewrite Ek. cbn [bind]. cbv zeta. clear Ek Hk k.
  destruct (first_some_spec (fun p => do r <- pymod n p; Ret (if r =? 0 then Some p else None)) (fun p r => match r with Some q => q = p /\ (p | n) | None => ~ (p | n) end) pl) as (small & Es & Hs).
  { intros p Hpl. apply Hp in Hpl as [Pp _]. pose proof (prime_ge2 p Pp). unfold pymod. destruct (Z.eqb_spec p 0); [lia|]. cbn [bind]. eexists. split; [reflexivity|]. destruct (Z.eqb_spec (n mod p) 0) as [D|D]; [split; [reflexivity|apply Z.mod_divide; [lia|exact D]]|]. intros X. apply D, Z.mod_divide; [lia|exact X]. }
  rewrite Es. cbn [bind]. destruct small as [p|].
  { right. right. destruct Hs as (l1 & x & l2 & El & (-> & D) & _). exists x. assert (Px : prime x) by (apply (Hp x); rewrite El; apply in_elt). pose proof (prime_ge2 x Px). split; [reflexivity|]. split; [exact D|]. split; [lia|]. intros <-. exact Px. }
  rewrite (filterM_ret _ (fun p => (p =? 2) || (0 <=? legendre (kk * n) p))).
  2:{ intros p Hpl. apply Hp in Hpl as [Pp _]. destruct (Z.eqb_spec p 2); [reflexivity|]. rewrite jacobi_prime by assumption. reflexivity. }
  cbn [bind]. set (ps := filter _ pl). assert (Hne : ps <> []). { assert (In 2 ps) by (apply filter_In; split; [apply Hp; split; [exact prime_2|exact HB]|reflexivity]). destruct ps; [contradiction|discriminate]. }
  assert (ND : NoDup ps) by (apply NoDup_filter, sorted_NoDup, Sp). assert (Hps : forall p, In p ps -> prime p) by (intros p Hpp; apply filter_In in Hpp as [Hpp _]; apply Hp, Hpp). clearbody ps.
  destruct (exponent_loop n) as (e & -> & He & _). cbn [bind]. destruct (C04_integer_sqrt_near (kk * n) ltac:(nia)) as (g & -> & _). cbn [bind].
  destruct (aq_step_ok (kk * n) g (aq_init (kk * n) g) ltac:(nia) Sq (aq_init_inv _ g)) as (gen & Eg & Hg & _). rewrite Eg. cbn [bind].
  destruct (collect_ok n (kk * n) g e ps rounds gen ltac:(nia) ltac:(exists kk; reflexivity) Sq ltac:(lia) Hne ND Hps Hg) as [Ed|(M & al & Ec & (R1 & R2 & R3) & HL)].
  { left. rewrite Ed. reflexivity. }
  rewrite Ec. cbn [bind]. set (base := -1 :: ps) in *. destruct (z2_ok (length base) M) as (vs & Ev & (Kv & _) & _); [cbn [length base]; lia|destruct M; [cbn in HL; lia|discriminate]|intros row Hr; apply R2, Hr|].
  rewrite Ev. cbn [bind]. right.
  destruct (first_some_spec (fun v => do '(x, y) <- relation n (Z.of_nat (length base)) base M al v; first_some (fun val => do d <- gcd val n; Ret (if (1 <? d) && (d <? n) then Some d else None)) [x - y; x + y]) (fun _ r => match r with Some d => (d | n) /\ 1 < d < n | None => True end) vs) as (r & Er & Hr).
  { intros v Hv. destruct (relation_ok n base M al v ltac:(lia) R1 R2 R3 (Kv v Hv)) as (x & y & E & _). rewrite E. cbn [bind].
    destruct (first_some_spec (fun val => do d <- gcd val n; Ret (if (1 <? d) && (d <? n) then Some d else None)) (fun _ r => match r with Some d => (d | n) /\ 1 < d < n | None => True end) [x - y; x + y]) as (r & Er & Hr).
    { intros w _. rewrite gcd_correct. cbn [bind]. eexists. split; [reflexivity|]. destruct (Z.ltb_spec 1 (Z.gcd w n)); cbn [andb]; [|exact I]. destruct (Z.ltb_spec (Z.gcd w n) n); [|exact I]. split; [apply Z.gcd_divide_r|lia]. }
    exists r. split; [exact Er|]. destruct r as [d|]; [|exact I]. destruct Hr as (_ & _ & _ & _ & H & _). exact H. }
  rewrite Er. destruct r as [d|]; [right|left; reflexivity]. destruct Hr as (_ & _ & _ & _ & (H1 & H2) & _). exists d. split; [reflexivity|]. split; [exact H1|]. split; [lia|]. lia.
Qed.

(** ** Squares *)
Lemma legendre_square m p : 0 < p -> 0 <= legendre (1 * (m * m)) p.
Proof.
  intros Hp. unfold legendre. destruct (_ =? 0); [lia|]. replace (existsb _ _) with true; [lia|]. symmetry. apply existsb_exists. exists (m mod p). split; [apply zrange_In, Z.mod_pos_bound, Hp|]. apply Z.eqb_eq. rewrite <- Zmult_mod. f_equal. ring.
Qed.

Lemma filter_le {A} (f : A -> bool) l : (length (filter f l) <= length l)%nat.
Proof. induction l as [|x l IH]; [reflexivity|]. cbn [filter]. destruct (f x); cbn [length]; lia. Qed.

Lemma multiplier_square m : cfrac_multiplier (m * m) = Ret 1.
Proof.
  destruct (cfrac_multiplier_ok (m * m)) as (k & E & Hk & _ & H). rewrite E. f_equal.
  assert (A : madm (1 * (m * m))) by (split; apply legendre_square; lia). specialize (H 1 ltac:(lia) A).
  assert (C1 : mcount (1 * (m * m)) = 10). { unfold mcount. assert (F : filter (fun p => 0 <=? legendre (1 * (m * m)) p) multiplier_primes = multiplier_primes).
    { assert (G : forall l, (forall p, In p l -> 0 < p) -> filter (fun p => 0 <=? legendre (1 * (m * m)) p) l = l). { induction l as [|p l IH]; intros Hl; [reflexivity|]. cbn [filter]. destruct (Z.leb_spec 0 (legendre (1 * (m * m)) p)) as [_|X]; [f_equal; apply IH; intros q Hq; apply Hl; right; exact Hq|]. pose proof (legendre_square m p ltac:(apply Hl; left; reflexivity)). lia. }
      apply G. intros p Hp. destruct (multiplier_primes_prime p Hp) as [P _]. pose proof (prime_ge2 p P). lia. }
    rewrite F. reflexivity. }
  assert (Ck : mcount (k * (m * m)) <= 10). { unfold mcount. pose proof (filter_le (fun p => 0 <=? legendre (k * (m * m)) p) multiplier_primes) as X. change (length multiplier_primes) with 10%nat in X. lia. }
  lia.
Qed.

Lemma wl_done {S R} (step : S -> S + R) n s r : step s = inr r -> wl step n s = inr r.
Proof. intros H. induction n as [|n IH]; cbn [wl]; [exact H|]. rewrite IH. reflexivity. Qed.

Lemma cfrac_square B rounds m : 2 <= m -> (2 <= B (m * m)) -> (forall p, prime p -> p <= B (m * m) -> ~ (p | m)) ->
  cfrac B rounds (m * m) None = Raise ZeroDivisionError.
Proof.
  intros Hm HB Hp. unfold cfrac. destruct (C14_primes (B (m * m))) as (pl & -> & Sp & Hpl). cbn [bind]. rewrite multiplier_square. cbn [bind]. cbv zeta.
  assert (Es : first_some (fun p => do r <- pymod (m * m) p; Ret (if r =? 0 then Some p else None)) pl = Ret None).
  { assert (G : forall l, (forall p, In p l -> prime p /\ ~ (p | m)) -> first_some (fun p => do r <- pymod (m * m) p; Ret (if r =? 0 then Some p else None)) l = Ret None).
    { induction l as [|p l IH]; intros H; [reflexivity|]. cbn [first_some]. destruct (H p (or_introl eq_refl)) as [P N]. pose proof (prime_ge2 p P). unfold pymod at 1. destruct (Z.eqb_spec p 0); [lia|]. cbn [bind]. destruct (Z.eqb_spec ((m * m) mod p) 0) as [D|D]; [|apply IH; intros q Hq; apply H; right; exact Hq].
      exfalso. apply Z.mod_divide in D; [|lia]. apply prime_mult in D; [|exact P]. destruct D; contradiction. }
    apply G. intros p H. apply Hpl in H as [P L]. split; [exact P|apply Hp; assumption]. }
  rewrite Es. cbn [bind]. rewrite (filterM_ret _ (fun p => (p =? 2) || (0 <=? legendre (1 * (m * m)) p))).
  2:{ intros p H. apply Hpl in H as [Pp _]. destruct (Z.eqb_spec p 2); [reflexivity|]. rewrite jacobi_prime by assumption. reflexivity. }
  cbn [bind]. destruct (exponent_loop (m * m)) as (e & -> & He & _). cbn [bind]. replace (1 * (m * m)) with (m * m) by ring. rewrite Float2_Proofs.integer_sqrt_square by lia. cbn [bind].
  destruct (aq_square m Hm) as (gen & E1 & E2). rewrite E1. cbn [bind]. set (ps := filter _ pl). set (base := -1 :: ps).
  assert (R : run (collect_step (m * m) m (Z.of_nat (length base)) (zprod base) e base) rounds (gen, [], []) = Raise ZeroDivisionError).
  { unfold run. rewrite (wl_done _ rounds (gen, [], []) (Raise ZeroDivisionError)); [reflexivity|]. unfold collect_step. cbn [length]. destruct (Z.leb_spec (Z.of_nat 0) (Z.of_nat (length base))); [|lia]. destruct gen as [[[[[[i A0] a] Q0] q] P0] r0]. rewrite E2. reflexivity. }
  rewrite R. reflexivity.
Qed.
