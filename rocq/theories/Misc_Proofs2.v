(** * maximize_divisors: the search visits a number with the most divisors *)
From Coq Require Import ZArith List Bool Lia Znumtheory Zpow_facts Sorting.Sorted Sorting.Permutation.
From Verif Require Import Base Sums Lists Lists2 NT NT_Euler Factor_Spec Factor_Model Factor_Proofs Div_Proofs Arith_Spec Arith_Proofs Tab_Proofs Find_Proofs8 PrimeList_Data PrimeList_Proofs Misc_Model.
Import ListNotations.
Open Scope Z_scope.

(** ** Number of divisors *)
Lemma tau_times p k m : prime p -> 1 <= m -> ~ (p | m) -> 0 <= k -> tau (p ^ k * m) = (k + 1) * tau m.
Proof.
  intros Hp Hm N Hk. destruct (Z.eq_dec k 0) as [->|Nk]; [rewrite Z.pow_0_r, Z.mul_1_l; ring|]. destruct (fac_exists m Hm) as (l & F). pose proof F as (S & A & V).
  assert (Hl : ~ In p (map fst l)). { intros X. apply N. apply (factorization_prime_divisor m l p F Hp). exact X. }
  assert (F' : factorization (p ^ k * m) (kinsert (p, k) l)).
  { split; [apply kinsert_sorted; [exact Hl|exact S]|]. split.
    - intros q e H. apply (Permutation_in _ (kinsert_perm (p, k) l)) in H as [[= <- <-]|H]; [split; [exact Hp|lia]|apply A, H].
    - rewrite (fac_value_perm _ _ (kinsert_perm (p, k) l)), fac_value_cons, V. reflexivity. }
  rewrite (tau_fac _ _ F'), (tau_fac _ _ F). rewrite (zprod_perm _ _ (Permutation_map _ (kinsert_perm (p, k) l))). reflexivity.
Qed.

Lemma tau_1 : tau 1 = 1. Proof. reflexivity. Qed.
Lemma tau_pos n : 1 <= n -> 1 <= tau n.
Proof.
  intros Hn. unfold tau. assert (In 1 (all_divisors n)) by (apply all_divisors_In; [lia|]; split; [lia|apply Z.divide_1_l]). destruct (all_divisors n); [destruct H|]. cbn [length]. lia.
Qed.

(** A number with the most divisors up to [B], as small as possible. *)
Lemma champion B : 1 <= B -> exists y, 1 <= y <= B /\ (forall x, 1 <= x <= B -> tau x <= tau y) /\ (forall x, 1 <= x < y -> tau x < tau y).
Proof.
  intros HB. replace B with (B - 1 + 1) by lia. assert (H0 : 0 <= B - 1) by lia. generalize (B - 1) H0. clear. intros b Hb. pattern b. apply natlike_ind; [| |exact Hb].
  - exists 1. split; [lia|]. split; [intros x Hx; replace x with 1 by lia; lia|intros; lia].
  - clear b Hb. intros b Hb (y & Hy & M & L). unfold Z.succ. destruct (Z.le_gt_cases (tau (b + 1 + 1)) (tau y)) as [C|C].
    + exists y. split; [lia|]. split; [|exact L]. intros x Hx. destruct (Z.eq_dec x (b + 1 + 1)) as [->|]; [exact C|apply M; lia].
    + exists (b + 1 + 1). split; [lia|]. split; intros x Hx; [destruct (Z.eq_dec x (b + 1 + 1)) as [->|]; [lia|specialize (M x ltac:(lia)); lia]|specialize (M x ltac:(lia)); lia].
Qed.

Lemma prime_pow_coprime p q k : prime p -> prime q -> p <> q -> 0 <= k -> ~ (p | q ^ k).
Proof. intros Hp Hq N Hk D. apply prime_pow_divide in D; auto. Qed.

(** Swapping exponents. *)
Lemma exchange y p q a b w1 w2 : 1 <= y -> (forall x, 1 <= x < y -> tau x < tau y) -> prime p -> prime q -> p < q -> 0 <= a -> 0 <= b ->
  y = p ^ a * w1 -> ~ (p | w1) -> y = q ^ b * w2 -> ~ (q | w2) -> b <= a.
Proof.
  intros Hy L Hp Hq Hpq Ha Hb E1 N1 E2 N2. destruct (Z.le_gt_cases b a) as [|C]; [assumption|exfalso].
  pose proof (prime_ge_2 p Hp) as P2. pose proof (prime_ge_2 q Hq) as Q2. assert (Pa : 0 < p ^ a) by (apply Z.pow_pos_nonneg; lia). assert (Qb : 0 < q ^ b) by (apply Z.pow_pos_nonneg; lia).
  assert (D : (p ^ a | w2)). { apply (Gauss _ (q ^ b)); [rewrite <- E2, E1; apply Z.divide_factor_l|]. apply Zpow_facts.rel_prime_Zpower; try lia. apply prime_rel_prime; [exact Hp|]. intros X. apply prime_div_prime in X; [lia|exact Hp|exact Hq]. }
  destruct D as [m Em]. assert (Ew1 : w1 = q ^ b * m). { apply (Z.mul_cancel_l _ _ (p ^ a)); [lia|]. rewrite <- E1, E2, Em. ring. }
  assert (Np : ~ (p | m)) by (intros X; apply N1; rewrite Ew1; apply Z.divide_mul_r, X). assert (Nq : ~ (q | m)) by (intros X; apply N2; rewrite Em; apply Z.divide_mul_l, X).
  assert (Hm : 1 <= m) by (clear - E1 Ew1 Pa Qb Hy; nia).
  assert (T : forall i j, 0 <= i -> 0 <= j -> tau (p ^ i * (q ^ j * m)) = (i + 1) * ((j + 1) * tau m)).
  { intros i j Hi Hj. assert (0 < q ^ j) by (apply Z.pow_pos_nonneg; lia). rewrite tau_times; [|exact Hp|nia| |exact Hi].
    - rewrite tau_times by (try assumption; lia). reflexivity.
    - intros X. apply prime_mult in X; [|exact Hp]. destruct X as [X|X]; [|exact (Np X)]. revert X. apply prime_pow_coprime; [exact Hp|exact Hq|lia|exact Hj]. }
  assert (Ey : y = p ^ a * (q ^ b * m)) by (rewrite E1, Ew1; reflexivity).
  assert (Lt : p ^ b * (q ^ a * m) < y).
  { rewrite Ey. assert (Pw : p ^ (b - a) < q ^ (b - a)) by (apply Z.pow_lt_mono_l; lia). assert (Qa : 0 < q ^ a) by (apply Z.pow_pos_nonneg; lia).
    replace b with (a + (b - a)) by lia. rewrite !Z.pow_add_r by lia. set (u := p ^ a) in *. set (v := q ^ a) in *. set (r := p ^ (b - a)) in *. set (s := q ^ (b - a)) in *.
    replace (u * r * (v * m)) with ((u * v * m) * r) by ring. replace (u * (v * s * m)) with ((u * v * m) * s) by ring. apply Z.mul_lt_mono_pos_l; [|exact Pw]. apply Z.mul_pos_pos; [apply Z.mul_pos_pos; assumption|lia]. }
  assert (Pos : 1 <= p ^ b * (q ^ a * m)). { assert (0 < p ^ b) by (apply Z.pow_pos_nonneg; lia). assert (0 < q ^ a) by (apply Z.pow_pos_nonneg; lia). assert (0 < q ^ a * m) by (apply Z.mul_pos_pos; lia). assert (0 < p ^ b * (q ^ a * m)) by (apply Z.mul_pos_pos; assumption). lia. }
  specialize (L _ (conj Pos Lt)). rewrite Ey in L. rewrite !T in L by lia. nia.
Qed.

(** ** What the search visits *)
Inductive visited (B : Z) : list Z -> Z -> Z -> Z -> Z -> Z -> Prop :=
| v_here ps e t u : visited B ps e t u t u
| v_next p ps e t u k t' u' : 1 <= k <= e -> t * p ^ k <= B -> visited B ps k (t * p ^ k) (u * (k + 1)) t' u' -> visited B (p :: ps) e t u t' u'.

Definition improves (V : Z -> Z -> Prop) (best r : Z * Z) : Prop :=
  fst best <= fst r /\ (r = best \/ V (snd r) (fst r)) /\ forall t u, V t u -> u <= fst r.

Lemma record_improves best t u : improves (fun t' u' => t' = t /\ u' = u) best (record best t u).
Proof.
  unfold record, improves. destruct (Z.ltb_spec (fst best) u); cbn [fst snd]; (split; [lia|]); (split; [auto|]); intros ? ? [-> ->]; lia.
Qed.

Lemma improves_seq (V W X : Z -> Z -> Prop) a b c : improves V a b -> improves W b c -> (forall t u, X t u <-> V t u \/ W t u) -> improves X a c.
Proof.
  intros (A1 & A2 & A3) (B1 & B2 & B3) E. split; [lia|]. split.
  - destruct B2 as [->|B2]; [|right; apply E; auto]. destruct A2 as [->|A2]; [auto|right; apply E; auto].
  - intros t u H. apply E in H as [H|H]; [specialize (A3 t u H); lia|exact (B3 t u H)].
Qed.
Lemma improves_none (V : Z -> Z -> Prop) a : (forall t u, ~ V t u) -> improves V a a.
Proof. intros H. split; [lia|]. split; [auto|]. intros t u X. destruct (H t u X). Qed.

Definition inner (B : Z) (p : Z) (ps : list Z) (total tau : Z) := fix loop (todo : list Z) (t_pk : Z) (best : Z * Z) : Z * Z :=
  match todo with
  | [] => best
  | k :: todo => let t_total := total * t_pk in if t_total <=? B then loop todo (t_pk * p) (div_backtrack B ps k t_total (tau * (k + 1)) best) else best
  end.

Lemma backtrack_improves B ps : Forall (fun p => 2 <= p) ps -> forall e t u best, 1 <= t -> improves (visited B ps e t u) best (div_backtrack B ps e t u best).
Proof.
  induction ps as [|p ps IH]; intros F e t u best Ht.
  - cbn [div_backtrack]. eapply improves_seq; [apply record_improves|apply (improves_none (fun _ _ => False)); tauto|]. intros t' u'. split; [intros H; inversion H; auto|intros [[-> ->]|[]]; constructor].
  - inversion_clear F as [|? ? Hp F']. cbn [div_backtrack]. fold (inner B p ps t u).
    assert (G : forall a best, 1 <= a -> improves (fun t' u' => exists k, a <= k <= e /\ t * p ^ k <= B /\ visited B ps k (t * p ^ k) (u * (k + 1)) t' u') best (inner B p ps t u (zrange a (e + 1)) (p ^ a) best)).
    { intros a. remember (Z.to_nat (e + 1 - a)) as f eqn:Ef. revert a Ef. induction f as [|f IHf]; intros a Ef b Ha.
      - rewrite zrange_nil by lia. cbn [inner]. apply improves_none. intros t' u' (k & Hk & _). lia.
      - rewrite zrange_cons by lia. cbn [inner]. cbv zeta. assert (Pa : 0 < p ^ a) by (apply Z.pow_pos_nonneg; lia). destruct (Z.leb_spec (t * p ^ a) B) as [C|C].
        + eapply improves_seq; [apply (IH F' a (t * p ^ a) (u * (a + 1)) b); clear - Pa Ht; nia| |].
          * replace (p ^ a * p) with (p ^ (a + 1)) by (rewrite Z.pow_add_r by lia; f_equal; lia). apply IHf; lia.
          * intros t' u'. cbn beta. split.
            -- intros (k & Hk & Hkb & V). destruct (Z.eq_dec k a) as [->|]; [left; exact V|right; exists k; split; [lia|auto]].
            -- intros [V|(k & Hk & Hkb & V)]; [exists a; split; [lia|auto]|exists k; split; [lia|auto]].
        + apply improves_none. intros t' u' (k & Hk & Hkb & _). assert (p ^ a <= p ^ k) by (apply Z.pow_le_mono_r; lia). clear - C Hkb H Ht. nia. }
    eapply improves_seq; [apply record_improves| |].
    + rewrite <- (Z.pow_1_r p) at 2. apply (G 1). lia.
    + intros t' u'. cbn beta. split.
      * intros H. inversion H; subst; [auto|]. right. eexists. split; [|split]; eassumption.
      * intros [[-> ->]|(k & Hk & Hkb & V)]; [constructor|econstructor; eassumption].
Qed.

(** Soundness. *)
Lemma visited_sound B ps e t u t' u' : visited B ps e t u t' u' -> Forall prime ps -> NoDup ps -> (forall p, In p ps -> ~ (p | t)) -> 1 <= t <= B -> u = tau t -> 1 <= t' <= B /\ u' = tau t'.
Proof.
  induction 1 as [|p ps e t u k t' u' Hk Hb V IH]; intros F N C Ht Hu; [auto|]. inversion_clear F as [|? ? Hp F']. inversion_clear N as [|? ? N1 N2]. pose proof (prime_ge_2 p Hp) as P2. assert (Pk : 0 < p ^ k) by (apply Z.pow_pos_nonneg; lia).
  assert (Np : ~ (p | t)) by (apply C; left; reflexivity). rewrite Forall_forall in F'. apply IH; [rewrite Forall_forall; exact F'|exact N2| |split; [nia|exact Hb]|].
  - intros q Hq D. apply prime_mult in D; [|apply F', Hq]. destruct D as [D|D]; [exact (C q (or_intror Hq) D)|]. revert D. apply prime_pow_coprime; [apply F', Hq|exact Hp| |lia]. intros ->. exact (N1 Hq).
  - rewrite (Z.mul_comm t), tau_times by (try assumption; lia). subst u. ring.
Qed.

(** ** Completeness *)
Section Complete.
  Context (B bound y : Z) (pl : list Z).
  Hypothesis Sorted_pl : StronglySorted Z.lt pl.
  Hypothesis In_pl : forall x, In x pl <-> prime x /\ x <= bound.
  Hypothesis HB : B < zprod pl.
  Hypothesis Hy : 1 <= y <= B.
  Hypothesis Least : forall x, 1 <= x < y -> tau x < tau y.

  (** The prefix of the table kept by the program. *)
  Lemma primorial_prefix l pp : exists rest, l = primorial_primes B pp l ++ rest /\ (rest = [] \/ exists p r, rest = p :: r /\ B < pp * zprod (primorial_primes B pp l) * p).
  Proof using Type.
    revert pp. induction l as [|p l IH]; intros pp; cbn [primorial_primes]; [exists []; auto|]. destruct (Z.leb_spec (pp * p) B) as [C|C].
    - destruct (IH (pp * p)) as (rest & E & R). exists rest. split; [cbn [app]; rewrite <- E; reflexivity|]. destruct R as [R|(q & r & -> & H)]; [auto|right]. exists q, r. split; [reflexivity|]. unfold zprod in *. cbn [fold_right]. rewrite Z.mul_assoc in *. exact H.
    - exists (p :: l). split; [reflexivity|right]. exists p, l. split; [reflexivity|]. unfold zprod. cbn [fold_right]. lia.
  Qed.

  Lemma divisible_all ds w : NoDup ds -> Forall prime ds -> (forall q, In q ds -> (q | w)) -> (zprod ds | w).
  Proof using Type.
    induction ds as [|p ds IH]; intros N F D; [apply Z.divide_1_l|]. inversion_clear N as [|? ? N1 N2]. inversion_clear F as [|? ? Hp F']. change (zprod (p :: ds)) with (p * zprod ds).
    destruct (IH N2 F' (fun q Hq => D q (or_intror Hq))) as [c Ec]. assert (X : (p | c * zprod ds)) by (rewrite <- Ec; apply D; left; reflexivity). apply prime_mult in X; [|exact Hp]. destruct X as [[c' ->]|X].
    - exists c'. rewrite Ec. ring.
    - exfalso. clear - X N1 Hp F'. induction ds as [|q ds IH]; [pose proof (prime_ge_2 p Hp); apply Z.divide_1_r_nonneg in X; lia|]. inversion_clear F' as [|? ? Hq F'']. change (zprod (q :: ds)) with (q * zprod ds) in X. apply prime_mult in X; [|exact Hp]. destruct X as [X|X].
      + apply N1. left. symmetry. apply prime_div_prime; assumption.
      + apply IH; auto. intros Y. apply N1. right. exact Y.
  Qed.

  (** Going down the list of primes: [done] have been treated, the last of them with exponent [e]. *)
  Lemma complete_down done ps rest l e t m : pl = done ++ [l] ++ ps ++ rest -> (rest = [] \/ exists p r, rest = p :: r /\ B < zprod (done ++ [l] ++ ps) * p) ->
    y = t * m -> (forall q, In q (done ++ [l]) -> ~ (q | m) /\ (q | t)) -> (forall q, prime q -> (q | t) -> In q (done ++ [l])) -> 1 <= e -> (exists w, y = l ^ e * w /\ ~ (l | w)) -> 1 <= t -> 1 <= m -> visited B ps e t (tau t) y (tau y).
  Proof using All.
    revert done l e t m. induction ps as [|p ps IH]; intros done l e t m El Er Ey Hd Ht He Hw Ht1 Hm.
    - assert (m = 1); [|subst m; rewrite Ey, Z.mul_1_r; constructor]. destruct (Z.eq_dec m 1) as [|N]; [assumption|exfalso]. destruct (prime_divisor_exists m ltac:(lia)) as (q & Hq & Dq). pose proof (prime_ge_2 q Hq) as Q2.
      assert (Nq : ~ In q (done ++ [l])) by (intros X; apply (proj1 (Hd q X)), Dq). cbn [app] in El.
      assert (Pd : Forall prime (done ++ [l])). { apply Forall_forall. intros x Hx. assert (X : In x pl) by (rewrite El, app_comm_cons || rewrite El; apply in_app_or in Hx as [Hx|[<-|[]]]; apply in_or_app; [left; exact Hx|right; left; reflexivity]). apply In_pl in X. apply X. }
      assert (Nd : NoDup (done ++ [l])). { pose proof (sorted_lt_NoDup pl Sorted_pl) as N'. rewrite El in N'. replace (done ++ l :: rest) with ((done ++ [l]) ++ rest) in N' by (rewrite <- app_assoc; reflexivity). exact (proj1 (NoDup_app_inv _ _ N')). }
      assert (Dall : (zprod (done ++ [l]) * q | y)). { destruct (divisible_all (done ++ [l]) t Nd Pd (fun x Hx => proj2 (Hd x Hx))) as [c Ec]. destruct Dq as [c' Ec']. exists (c * c'). rewrite Ey, Ec, Ec'. ring. }
      apply Z.divide_pos_le in Dall; [|lia].
      assert (Zp : 1 <= zprod (done ++ [l])). { clear - Pd. induction Pd as [|x ll Hx Pd IH]; [cbn; lia|]. change (zprod (x :: ll)) with (x * zprod ll). pose proof (prime_ge_2 x Hx). nia. }
      destruct Er as [->|(p & r & -> & Hp)].
      + cbn [app] in El. rewrite <- El in Dall. assert (zprod pl <= B) by (rewrite <- El in Zp; nia). lia.
      + cbn [app] in Hp. assert (p <= q). { assert (Ip : In p pl) by (rewrite El; apply in_or_app; right; right; left; reflexivity). destruct (Z.le_gt_cases p q) as [|X]; [assumption|exfalso]. assert (Iq : In q pl). { apply In_pl. split; [exact Hq|]. apply In_pl in Ip. lia. }
          rewrite El in Iq. apply in_app_or in Iq as [Iq|[->|[->|Iq]]]; [apply Nq, in_or_app; auto|apply Nq, in_or_app; right; left; reflexivity|lia|].
          rewrite El in Sorted_pl. clear - Sorted_pl X Iq. induction done as [|a dn IHd]; cbn [app] in Sorted_pl; inversion_clear Sorted_pl as [|? ? S F]; [|auto]. inversion_clear S as [|? ? S' F']. rewrite Forall_forall in F'. specialize (F' q Iq). lia. }
        assert (zprod (done ++ [l]) * p <= zprod (done ++ [l]) * q) by (apply Z.mul_le_mono_nonneg_l; lia). cbn [app] in *. lia.
    - destruct (Z.eq_dec m 1) as [->|Nm]; [rewrite Ey, Z.mul_1_r; constructor|].
      assert (Ipl : In p pl) by (rewrite El; apply in_or_app; right; right; left; reflexivity). assert (Hp : prime p) by (apply In_pl in Ipl; apply Ipl). pose proof (prime_ge_2 p Hp) as P2.
      assert (Sm : forall q, prime q -> (q | y) -> ~ In q (done ++ [l]) -> p <= q).
      { intros q Hq Dq Nq. destruct (Z.le_gt_cases p q) as [|X]; [assumption|exfalso]. assert (Iq : In q pl). { apply In_pl. split; [exact Hq|]. apply In_pl in Ipl. lia. }
        rewrite El in Iq. apply in_app_or in Iq as [Iq|[->|[->|Iq]]]; [apply Nq, in_or_app; auto|apply Nq, in_or_app; right; left; reflexivity|lia|].
        rewrite El in Sorted_pl. clear - Sorted_pl X Iq. induction done as [|a dn IHd]; cbn [app] in Sorted_pl; inversion_clear Sorted_pl as [|? ? S F]; [|auto]. inversion_clear S as [|? ? S' F']. rewrite Forall_forall in F'. specialize (F' q Iq). lia. }
      assert (Npd : ~ In p (done ++ [l])). { rewrite El in Sorted_pl. clear - Sorted_pl. intros X. assert (forall x, In x (done ++ [l]) -> x < p). { induction done as [|a dn IHd]; cbn [app] in Sorted_pl; inversion_clear Sorted_pl as [|? ? S F]; rewrite Forall_forall in F.
          - intros x [<-|[]]. apply F. left. reflexivity.
          - intros x [<-|Hx]; [apply F; apply in_or_app; right; right; left; reflexivity|]. apply IHd; [exact S| |exact Hx]. apply in_app_or in X as [X|X]; apply in_or_app; [|auto]. destruct X as [->|X]; [|auto]. exfalso. specialize (F p ltac:(apply in_or_app; right; right; left; reflexivity)). lia. }
        specialize (H p X). lia. }
      assert (Lp : l < p). { rewrite El in Sorted_pl. clear - Sorted_pl. induction done as [|a dn IHd]; cbn [app] in Sorted_pl; inversion_clear Sorted_pl as [|? ? S F]; [|auto]. rewrite Forall_forall in F. apply F. left. reflexivity. }
      assert (Npt : ~ (p | t)) by (intros X; apply Npd, Ht; assumption).
      destruct (strip_exists p m Hp ltac:(lia)) as (k & m' & Hk & Em & Nm' & Hm'). assert (Hl : prime l) by (assert (X : In l pl) by (rewrite El; apply in_or_app; right; left; reflexivity); apply In_pl in X; apply X).
      assert (Eyp : y = p ^ k * (t * m')) by (rewrite Ey, Em; ring). assert (Nptm : ~ (p | t * m')) by (intros X; apply prime_mult in X; [|exact Hp]; destruct X; contradiction).
      (* the exponent is at least one *)
      assert (K1 : 1 <= k).
      { destruct (Z.eq_dec k 0) as [->|]; [exfalso|lia]. rewrite Z.pow_0_r, Z.mul_1_l in Eyp, Em. subst m'. destruct (prime_divisor_exists m ltac:(lia)) as (q & Hq & Dq).
        assert (Dqy : (q | y)) by (rewrite Ey; apply Z.divide_mul_r, Dq). assert (Nq : ~ In q (done ++ [l])) by (intros X; apply (proj1 (Hd q X)), Dq). pose proof (Sm q Hq Dqy Nq) as Hpq.
        assert (p <> q) by (intros ->; contradiction). destruct (strip_exists q y Hq ltac:(lia)) as (b & w2 & Hb & Ew & Nw & _).
        assert (X : b <= 0) by (apply (exchange y p q 0 b (t * m) w2); try assumption; try lia). assert (b = 0) by lia. subst b. rewrite Z.pow_0_r, Z.mul_1_l in Ew. subst w2. contradiction. }
      (* and at most the previous one *)
      assert (K2 : k <= e). { destruct Hw as (w & Ew & Nw). apply (exchange y l p e k w (t * m')); try assumption; try lia. }
      assert (Pk : 0 < p ^ k) by (apply Z.pow_pos_nonneg; lia).
      apply v_next with k; [lia| |].
      + assert (t * p ^ k * 1 <= t * p ^ k * m') by (apply Z.mul_le_mono_nonneg_l; [|lia]; apply Z.mul_nonneg_nonneg; lia). rewrite Z.mul_1_r in H. rewrite Eyp in Hy. replace (p ^ k * (t * m')) with (t * p ^ k * m') in Hy by ring. lia.
      + replace (tau t * (k + 1)) with (tau (t * p ^ k)) by (rewrite (Z.mul_comm t), tau_times by (try assumption; lia); ring).
        apply (IH (done ++ [l]) p k (t * p ^ k) m').
        * rewrite El. rewrite <- app_assoc. reflexivity.
        * destruct Er as [->|(p' & r & -> & H)]; [auto|right]. exists p', r. split; [reflexivity|]. rewrite <- app_assoc. exact H.
        * rewrite Eyp. ring.
        * intros q Hq. apply in_app_or in Hq as [Hq|[<-|[]]].
          -- destruct (Hd q Hq) as [A1 A2]. split; [intros X; apply A1; rewrite Em; apply Z.divide_mul_r, X|apply Z.divide_mul_l, A2].
          -- split; [exact Nm'|]. apply Z.divide_mul_r. exists (p ^ (k - 1)). replace k with (k - 1 + 1) at 1 by lia. rewrite Z.pow_add_r by lia. rewrite Z.pow_1_r. reflexivity.
        * intros q Hq D. apply prime_mult in D; [|exact Hq]. apply in_or_app. destruct D as [D|D]; [left; apply Ht; assumption|right; left]. apply prime_pow_divide in D; [congruence|exact Hq|exact Hp|lia].
        * exact K1.
        * exists (t * m'). split; [exact Eyp|exact Nptm].
        * clear - Ht1 Pk. nia.
        * lia.
  Qed.
End Complete.

Lemma maximize_ok B : 1 <= B < zprod PRIME_LIST -> exists t m, maximize_divisors B = (t, m) /\ 1 <= m <= B /\ t = tau m /\ forall x, 1 <= x <= B -> tau x <= t.
Proof.
  intros HB. unfold maximize_divisors. set (pl := primorial_primes B 1 PRIME_LIST). set (ks := filter _ _).
  assert (Hks : forall k, In k ks <-> 1 <= k /\ 2 ^ k <= B).
  { intros k. unfold ks. rewrite filter_In, zrange_In, Z.leb_le. split; [intros ((A & _) & C); auto|]. intros (A & C). split; [|exact C]. split; [exact A|]. apply Z.log2_le_pow2 in C; lia. }
  destruct (primorial_prefix B PRIME_LIST 1) as (rest & E & R). fold pl in E, R.
  assert (Fp : forall p, In p pl -> prime p) by (intros p Hp; assert (X : In p PRIME_LIST) by (rewrite E; apply in_or_app; auto); apply PRIME_LIST_In in X; apply X).
  assert (Np : NoDup pl). { pose proof (sorted_lt_NoDup _ PRIME_LIST_sorted) as N. rewrite E in N. exact (proj1 (NoDup_app_inv _ _ N)). }
  (* the table starts with 2 *)
  assert (H2 : exists l, PRIME_LIST = 2 :: l). { pose proof first_two as F2. destruct PRIME_LIST as [|a l]; [discriminate|]. exists l. cbn in F2. congruence. }
  destruct H2 as (l & El).
  assert (Ft : forall p, In p (tl pl) -> In p pl) by (intros p; destruct pl; cbn; auto).
  assert (F2 : Forall (fun p => 2 <= p) (tl pl)) by (apply Forall_forall; intros p Hp; apply prime_ge_2, Fp, Ft, Hp).
  assert (I : improves (fun t u => exists k, In k ks /\ visited B (tl pl) k (2 ^ k) (k + 1) t u) (1, 1) (fold_left (fun best k => div_backtrack B (tl pl) k (2 ^ k) (k + 1) best) ks (1, 1))).
  { assert (P : forall k, In k ks -> 1 <= k) by (intros k Hk; apply Hks in Hk; lia). clear Hks. clearbody ks. generalize (1, 1). induction ks as [|k ks' IH]; intros best; cbn [fold_left].
    - apply improves_none. intros t u (k & [] & _).
    - eapply improves_seq; [apply backtrack_improves; [exact F2|]|apply IH; intros; apply P; right; assumption|].
      + pose proof (Z.pow_pos_nonneg 2 k ltac:(lia) ltac:(specialize (P k (or_introl eq_refl)); lia)). lia.
      + intros t u. cbn beta. split; [intros (k' & [<-|Hk] & V); [auto|right; eauto]|intros [V|(k' & Hk & V)]; [exists k; split; [left; reflexivity|exact V]|exists k'; split; [right; exact Hk|exact V]]]. }
  set (r := fold_left _ ks (1, 1)) in *. destruct I as (I1 & I2 & I3). cbn [fst] in I1. exists (fst r), (snd r). split; [destruct r; reflexivity|].
  assert (Snd : 1 <= snd r <= B /\ fst r = tau (snd r)).
  { destruct I2 as [->|(k & Hk & V)]; [cbn; split; [lia|reflexivity]|]. apply Hks in Hk as [K1 K2]. apply visited_sound in V; [exact V| | | | |].
    - apply Forall_forall. intros p Hp. apply Fp, Ft, Hp.
    - destruct pl; [constructor|]. inversion Np; assumption.
    - intros p Hp D. assert (p = 2) by (apply prime_pow_divide in D; [exact D|apply Fp, Ft, Hp|apply prime_2|lia]). subst p.
      unfold pl in Np, Hp. rewrite El in Np, Hp. cbn [primorial_primes] in Np, Hp. destruct (1 * 2 <=? B); [|destruct Hp]. cbn [tl] in Hp. inversion_clear Np. contradiction.
    - pose proof (Z.pow_pos_nonneg 2 k ltac:(lia) ltac:(lia)). lia.
    - rewrite <- (Z.mul_1_r (2 ^ k)). rewrite tau_times; [rewrite tau_1; lia|apply prime_2|lia| |lia]. intros D. apply Z.divide_1_r_nonneg in D; lia. }
  split; [apply Snd|]. split; [apply Snd|].
  destruct (champion B ltac:(lia)) as (y & Hy & M & L). intros x Hx. specialize (M x Hx). apply Z.le_trans with (tau y); [exact M|].
  destruct (Z.eq_dec y 1) as [->|Ny]; [rewrite tau_1; lia|].
  (* y is even: otherwise move an exponent to 2 *)
  destruct (strip_exists 2 y prime_2 ltac:(lia)) as (k & w & Hk & Ew & Nw & Hw).
  assert (K1 : 1 <= k).
  { destruct (Z.eq_dec k 0) as [->|]; [exfalso|lia]. rewrite Z.pow_0_r, Z.mul_1_l in Ew. subst w. destruct (prime_divisor_exists y ltac:(lia)) as (q & Hq & Dq). pose proof (prime_ge_2 q Hq). assert (q <> 2) by (intros ->; contradiction).
    destruct (strip_exists q y Hq ltac:(lia)) as (b & w2 & Hb & Ew & Nw2 & _). assert (X : b <= 0) by (apply (exchange y 2 q 0 b y w2); try assumption; try lia; try apply prime_2; rewrite Z.pow_0_r; lia). assert (b = 0) by lia. subst b. rewrite Z.pow_0_r, Z.mul_1_l in Ew. subst w2. contradiction. }
  assert (P2k : 0 < 2 ^ k) by (apply Z.pow_pos_nonneg; lia). assert (K2 : 2 ^ k <= B) by (rewrite Ew in Hy; clear - Hy P2k Hw; nia).
  apply I3 with y. exists k. split; [apply Hks; auto|].
  assert (B2 : 2 <= B) by lia. assert (Epl : pl = 2 :: tl pl). { unfold pl. rewrite El. cbn [primorial_primes]. destruct (Z.leb_spec (1 * 2) B); [reflexivity|lia]. }
  replace (k + 1) with (tau (2 ^ k)) by (rewrite <- (Z.mul_1_r (2 ^ k)), tau_times; [rewrite tau_1; lia|apply prime_2|lia|intros D; apply Z.divide_1_r_nonneg in D; lia|lia]).
  apply (complete_down B 1000000 y PRIME_LIST PRIME_LIST_sorted PRIME_LIST_In ltac:(lia) Hy L [] (tl pl) rest 2 k (2 ^ k) w).
  - cbn [app]. rewrite app_comm_cons, <- Epl. exact E.
  - cbn [app]. rewrite <- Epl. destruct R as [->|(p & r' & -> & H)]; [auto|right]. exists p, r'. split; [reflexivity|]. lia.
  - exact Ew.
  - intros q [<-|[]]. split; [exact Nw|]. exists (2 ^ (k - 1)). replace k with (k - 1 + 1) at 1 by lia. rewrite Z.pow_add_r by lia. reflexivity.
  - intros q Hq D. left. symmetry. apply prime_pow_divide in D; [exact D|exact Hq|apply prime_2|lia].
  - exact K1.
  - exists w. auto.
  - lia.
  - lia.
Qed.
