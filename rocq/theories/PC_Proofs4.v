(** * Sieving the quotient table *)
From Coq Require Import ZArith List Lia Bool Znumtheory Sorted.
From Verif Require Import Base Py Dict Sums Lists Primes_Spec Core_Model Core_Spec Core_Props PC_Model PC_Spec PC_Proofs PC_Proofs2 PC_Proofs3.
Import ListNotations.
Open Scope Z_scope.

Definition LP (p : Z) : list Z := filter (fun q => if prime_dec q then true else false) (zrange 2 (p + 1)).
Lemma LP_In p q : In q (LP p) <-> prime q /\ q <= p.
Proof.
  unfold LP. rewrite filter_In, zrange_In. destruct (prime_dec q) as [P|NP]; [pose proof (prime_ge_2 q P); intuition lia|]. split; [intros (_ & E); discriminate|intros (X & _); contradiction].
Qed.
Lemma LP_S p : 2 <= p -> LP p = LP (p - 1) ++ (if prime_dec p then [p] else []).
Proof. intros H. unfold LP. rewrite zrange_snoc by lia. replace (p - 1 + 1) with p by lia. rewrite filter_app. cbn [filter]. destruct (prime_dec p); reflexivity. Qed.
Lemma LP_prime p : Forall prime (LP p).
Proof. apply Forall_forall. intros q H. apply LP_In in H. apply H. Qed.

Section lucy.
  Context (f : Z -> Z).
  Hypothesis (Cf : completely f) (F1 : f 1 = 1) (Fpos : forall m, 1 <= m -> 1 <= f m).

  (** The sum of f over the numbers 2 <= m <= v that are prime or have no prime factor <= p. *)
  Definition T (p v : Z) : Z := Phi f (LP p) v - 1 + PS f (Z.min p v).

  Lemma Phi_low y v : 1 <= v <= y -> Phi f (LP y) v = 1.
  Proof using F1.
    intros H. assert (Nz : Forall (fun q => q <> 0) (LP y)) by (apply Forall_forall; intros q Hq; apply LP_In in Hq as (Pq & _); apply prime_ge_2 in Pq; lia).
    unfold Phi. rewrite Sum_first by lia. rewrite Sum_zero.
    - assert (cop (LP y) 1 = 1) as ->; [|lia]. unfold cop. assert (free (LP y) 1 = true) as ->; [|reflexivity]. apply free_spec; [exact Nz|]. intros p Hp D. apply LP_In in Hp as (Pp & _). apply prime_ge_2 in Pp. apply Z.divide_1_r_nonneg in D; lia.
    - intros m Hm. assert (cop (LP y) m = 0) as ->; [|lia]. unfold cop. assert (free (LP y) m = false) as ->; [|reflexivity]. apply not_true_iff_false. rewrite free_spec by exact Nz. intros Fr. destruct (NT.prime_divisor_exists m ltac:(lia)) as (p & Pp & D). apply (Fr p); [|exact D].
      apply LP_In. split; [exact Pp|]. apply Z.divide_pos_le in D; lia.
  Qed.
  Lemma T_done y v : 1 <= y -> 1 <= v -> v < (y + 1) * (y + 1) -> T y v = PS f v.
  Proof using F1.
    intros Hy Hv L. unfold T. destruct (Z_le_gt_dec y v) as [X|X].
    - rewrite (Phi_rest f (LP y) y v (LP_In y)) by lia. rewrite Z.min_l by lia. lia.
    - rewrite Phi_low by lia. rewrite Z.min_r by lia. lia.
  Qed.
  Lemma T_start v : 1 <= v -> T 1 v = Sum 1 (v + 1) f - 1.
  Proof using F1. intros H. unfold T. change (LP 1) with (@nil Z). rewrite Phi_nil, Z.min_l by lia. rewrite PS_neg by lia. lia. Qed.
  Lemma T_composite p v : 2 <= p -> ~ prime p -> 1 <= v -> T p v = T (p - 1) v.
  Proof using.
    intros Hp NP Hv. unfold T. rewrite LP_S by lia. destruct (prime_dec p); [contradiction|]. rewrite app_nil_r. f_equal. destruct (Z_le_gt_dec p v); [|rewrite !Z.min_r by lia; reflexivity]. rewrite !Z.min_l by lia.
    replace p with (p - 1 + 1) at 1 by lia. rewrite PS_step by lia. replace (p - 1 + 1) with p by lia. unfold pr. destruct (prime_dec p); [contradiction|lia].
  Qed.
  Lemma T_prime p v : prime p -> p * p <= v -> T p v = T (p - 1) v - f p * (T (p - 1) (v / p) - T (p - 1) (p - 1)).
  Proof using Cf F1.
    intros Pp L. pose proof (prime_ge_2 p Pp) as H. assert (Lv : p <= v / p) by (apply Z.div_le_lower_bound; lia). rewrite (T_done (p - 1) (p - 1)) by nia. unfold T. rewrite !Z.min_l by nia.
    rewrite LP_S by lia. destruct (prime_dec p); [|contradiction]. rewrite (Phi_snoc f (LP (p - 1)) p v Cf (LP_prime _) Pp); [|intros I; apply LP_In in I as (_ & I); lia|nia].
    assert (PS f p = PS f (p - 1) + f p). { replace p with (p - 1 + 1) at 1 by lia. rewrite PS_step by lia. replace (p - 1 + 1) with p by lia. unfold pr. destruct (prime_dec p); [lia|contradiction]. }
    nia.
  Qed.
  Lemma T_test p : 2 <= p -> (T (p - 1) (p - 1) < T (p - 1) p <-> prime p).
  Proof using F1 Fpos.
    intros H. rewrite !T_done by nia. replace p with (p - 1 + 1) at 2 by lia. rewrite PS_step by lia. replace (p - 1 + 1) with p by lia. pose proof (Fpos p ltac:(lia)). unfold pr. destruct (prime_dec p); split; intros; auto; try lia; contradiction.
  Qed.

  Context (n r : Z) (V : list Z).
  Hypothesis (Hr : 1 <= r) (HVs : StronglySorted Z.gt V) (HV1 : forall v, In v V -> 1 <= v <= n) (HV3 : forall v, 1 <= v <= r -> In v V) (HV4 : forall v p, In v V -> 1 <= p <= v -> In (v / p) V).

  (** S holds the values G for the keys >= lo. *)
  Definition holds (lo : Z) (G : Z -> Z) (S : list (Z * Z)) : Prop := forall v, In v V -> lo <= v -> dget S v = Some (G v).

  Lemma strike_ok lo p G sp : 1 <= lo <= p -> 2 <= p -> forall S, holds lo G S -> exists S', strike (f p) p sp V S = Ret S' /\ holds lo (fun v => if v <? p * p then G v else G v - f p * (G (v / p) - sp)) S' /\ (forall v, v < p * p -> dget S' v = dget S v).
  Proof using HVs HV1 HV4.
    intros Hlo Hp. set (G' := fun v => if v <? p * p then G v else G v - f p * (G (v / p) - sp)).
    assert (W : forall rest done S, V = done ++ rest -> (forall v, In v done -> lo <= v -> dget S v = Some (G' v)) -> (forall v, In v rest -> lo <= v -> dget S v = Some (G v)) ->
      exists S', strike (f p) p sp rest S = Ret S' /\ (forall v, In v V -> lo <= v -> dget S' v = Some (G' v)) /\ (forall v, v < p * p -> dget S' v = dget S v)).
    { induction rest as [|v rest IH]; intros done S EV HD HR; cbn [strike].
      - exists S. split; [reflexivity|]. split; [|auto]. intros v Hv. apply HD. rewrite EV, app_nil_r in Hv. exact Hv.
      - assert (SR : (forall u, In u done -> v < u) /\ forall u, In u rest -> u < v).
        { clear - HVs EV. rewrite EV in HVs. clear EV. induction done as [|d done IH]; cbn [app] in HVs; inversion HVs as [|? ? A B]; subst; rewrite Forall_forall in B; [split; [intros u []|intros u Hu; specialize (B u Hu); lia]|].
          destruct (IH A) as (X & Y). split; [|exact Y]. intros u [<-|Hu]; [|auto]. specialize (B v ltac:(apply in_or_app; right; left; reflexivity)). lia. }
        destruct SR as (SD & SR). assert (Iv : In v V) by (rewrite EV; apply in_or_app; right; left; reflexivity). destruct (Z.ltb_spec v (p * p)) as [L|L].
        + exists S. split; [reflexivity|]. split; [|auto]. intros u Hu Lu. rewrite EV in Hu. apply in_app_or in Hu as [Hu|Hu]; [apply HD; assumption|]. assert (u <= v) by (destruct Hu as [<-|Hu]; [lia|specialize (SR u Hu); lia]).
          rewrite (HR u Hu Lu). unfold G'. destruct (Z.ltb_spec u (p * p)); [reflexivity|lia].
        + assert (1 <= p <= v) by nia. assert (Iq : In (v / p) V) by (apply HV4; assumption). assert (Lq : p <= v / p < v) by (split; [apply Z.div_le_lower_bound; lia|apply Z.div_lt; lia]).
          assert (Eq : dget S (v / p) = Some (G (v / p))). { apply HR; [|lia]. rewrite EV in Iq. apply in_app_or in Iq as [Iq|Iq]; [specialize (SD _ Iq); lia|exact Iq]. }
          unfold dgetM at 1. rewrite (HR v (or_introl eq_refl) ltac:(nia)). cbn [bind]. unfold pydiv. destruct (Z.eqb_spec p 0); [lia|]. cbn [bind]. unfold dgetM. rewrite Eq. cbn [bind].
          assert (EV' : V = (done ++ [v]) ++ rest) by (rewrite <- app_assoc; exact EV).
          edestruct (IH (done ++ [v]) (dset S v (G v - f p * (G (v / p) - sp))) EV') as (S' & E & A & B).
          * intros u Hu Lu. rewrite dget_dset. apply in_app_or in Hu as [Hu|[<-|[]]].
            { specialize (SD u Hu). destruct (Z.eqb_spec v u); [lia|]. apply HD; assumption. }
            rewrite Z.eqb_refl. unfold G'. destruct (Z.ltb_spec v (p * p)); [lia|reflexivity].
          * intros u Hu Lu. rewrite dget_dset. specialize (SR u Hu). destruct (Z.eqb_spec v u); [lia|]. apply HR; [right; exact Hu|exact Lu].
          * exists S'. split; [exact E|]. split; [exact A|]. intros u Hu. rewrite (B u Hu), dget_dset. destruct (Z.eqb_spec v u); [lia|reflexivity]. }
    intros S HS. destruct (W V [] S eq_refl ltac:(intros v []) HS) as (S' & E & A & B). exists S'. split; [exact E|]. split; [exact A|exact B].
  Qed.

  Definition body (k : Z -> Z) (S : list (Z * Z)) (p : Z) : outcome (list (Z * Z)) :=
    do a <- dgetM S p; do b <- dgetM S (p - 1); if b <? a then strike (k p) p b V S else Ret S.

  Lemma body_ok lo p S : 1 <= lo -> lo <= p - 1 -> 2 <= p <= r -> holds lo (T (p - 1)) S -> exists S', body f S p = Ret S' /\ holds lo (T p) S' /\ dget S' 1 = dget S 1.
  Proof using All.
    intros H1 Hlo Hp HS. unfold body, dgetM. rewrite (HS p (HV3 p ltac:(lia)) ltac:(lia)), (HS (p - 1) (HV3 (p - 1) ltac:(lia)) Hlo). cbn [bind]. destruct (Z.ltb_spec (T (p - 1) (p - 1)) (T (p - 1) p)) as [L|L].
    - apply T_test in L; [|lia]. destruct (strike_ok lo p (T (p - 1)) (T (p - 1) (p - 1)) ltac:(lia) ltac:(lia) S HS) as (S' & E & A & B). exists S'. split; [exact E|]. split; [|apply B; nia]. intros v Hv Lv. rewrite (A v Hv Lv). f_equal.
      destruct (Z.ltb_spec v (p * p)) as [X|X]; [specialize (HV1 v Hv); rewrite !T_done by nia; reflexivity|]. symmetry. apply T_prime; assumption.
    - exists S. split; [reflexivity|]. split; [|reflexivity]. intros v Hv Lv. rewrite (HS v Hv Lv). f_equal. symmetry. apply T_composite; [lia| |apply HV1, Hv]. intros P. apply T_test in P; lia.
  Qed.

  Lemma fold_body lo q S : 1 <= lo <= q -> q <= r -> holds lo (T q) S -> exists S', foldM (body f) (zrange (q + 1) (r + 1)) S = Ret S' /\ holds lo (T r) S' /\ dget S' 1 = dget S 1.
  Proof using All.
    intros Hlo Hq HS.
    assert (W : forall m, 0 <= m -> m <= r - q -> exists S', foldM (body f) (zrange (q + 1) (q + m + 1)) S = Ret S' /\ holds lo (T (q + m)) S' /\ dget S' 1 = dget S 1).
    { intros m Hm. pattern m. apply natlike_ind; [|intros k Hk IH L|exact Hm].
      - intros _. rewrite zrange_nil by lia. exists S. rewrite Z.add_0_r. repeat split; auto.
      - unfold Z.succ in *. destruct (IH ltac:(lia)) as (S1 & E1 & A1 & B1). replace (q + (k + 1) + 1) with (q + k + 1 + 1) by lia. rewrite zrange_snoc by lia. rewrite foldM_app, E1. cbn [bind foldM].
        destruct (body_ok lo (q + (k + 1)) S1) as (S2 & E2 & A2 & B2); [lia|lia|lia|replace (q + (k + 1) - 1) with (q + k) by lia; exact A1|]. replace (q + k + 1) with (q + (k + 1)) by lia. rewrite E2. cbn [bind]. exists S2. repeat split; auto. congruence. }
    destruct (W (r - q)) as (S' & X); [lia|lia|]. replace (q + (r - q)) with r in X by lia. exists S'. exact X.
  Qed.
End lucy.

Lemma initial_dict (g : Z -> Z) V v : In v V -> dget (fold_left (fun S i => dset S i (g i)) V []) v = Some (g v).
Proof.
  assert (W : forall V S, (In v V \/ dget S v = Some (g v)) -> dget (fold_left (fun S i => dset S i (g i)) V S) v = Some (g v)).
  { clear V. induction V as [|u V IH]; intros S H; cbn [fold_left]; [destruct H as [[]|H]; exact H|]. apply IH. destruct (Z.eq_dec u v) as [-> |N]; [right; apply dget_dset_same|]. destruct H as [[H|H]|H]; [contradiction|left; exact H|right; rewrite dget_dset_other; assumption]. }
  intros H. apply W. left. exact H.
Qed.

Lemma PS_is_sum n : prime_sum_is n (PS (fun m => m) n).
Proof. destruct (upto_pi n) as (l & H & _). exists l. split; [exact H|]. rewrite <- (PS_list _ n l H), map_id. reflexivity. Qed.

Lemma exact_root n : 1 <= n -> exact_sqrt_range n -> exists r, integer_sqrt n = Ret r /\ 1 <= r /\ r * r <= n < (r + 1) * (r + 1).
Proof.
  intros H E. destruct (C04_integer_sqrt_exact n) as (r & Er & Hr & B); [destruct E; [left; lia|right; assumption]|]. rewrite !Z.pow_2_r in B. exists r. split; [exact Er|]. split; [nia|exact B].
Qed.

Lemma prime_sum_ok n : 1 <= n -> exact_sqrt_range n -> exists s, prime_sum n = Ret s /\ prime_sum_is n s.
Proof.
  intros H E. unfold prime_sum. destruct (exact_root n H E) as (r & -> & Hr & B). cbn [bind]. destruct (quotients_ok n r Hr ltac:(lia)) as (V & -> & S & V1 & V2 & V3 & V4). cbn [bind].
  pose proof (fold_body (fun m => m) id_completely eq_refl (fun m Hm => Hm) n r V Hr S V1 V3 V4 1 1) as FB. unfold body in FB.
  destruct (FB (fold_left (fun S i => dset S i (i * (i + 1) / 2 - 1)) V [])) as (S' & ES & HS & _); [lia|lia| |].
  { intros v Hv _. rewrite (initial_dict (fun i => i * (i + 1) / 2 - 1)) by exact Hv. f_equal. specialize (V1 v Hv). rewrite T_start, Sum_id by (auto; lia). reflexivity. }
  change (1 + 1) with 2 in ES. rewrite ES. cbn [bind]. exists (PS (fun m => m) n). split; [|apply PS_is_sum]. unfold dgetM. assert (In n V) as In_n by (rewrite <- (Z.div_1_r n) at 1; apply V2; lia). rewrite (HS n In_n ltac:(lia)). f_equal. apply T_done; auto; lia.
Qed.

(** prime_count: the table starts after sieving by 2, except at the key 1. *)
Lemma prime_count_ok n : 1 <= n -> exact_sqrt_range n -> exists S, prime_count n = Ret S /\ (forall i, 1 <= i <= n -> 2 <= n / i -> dget S (n / i) = Some (pi (n / i))) /\ dget S n = Some (if n =? 1 then 1 else pi n) /\ dget S 1 = Some 1.
Proof.
  intros H E. unfold prime_count. destruct (exact_root n H E) as (r & -> & Hr & B). cbn [bind]. destruct (quotients_ok n r Hr ltac:(lia)) as (V & -> & S & V1 & V2 & V3 & V4). cbn [bind].
  set (S0 := fold_left (fun S i => dset S i ((i + 1) / 2)) V []).
  assert (I1 : In 1 V) by (apply V3; lia). assert (D1 : dget S0 1 = Some 1) by (unfold S0; rewrite (initial_dict (fun i => (i + 1) / 2)) by exact I1; reflexivity).
  assert (H2 : holds V 2 (T one 2) S0).
  { intros v Hv Lv. unfold S0. rewrite (initial_dict (fun i => (i + 1) / 2)) by exact Hv. f_equal. specialize (V1 v Hv). unfold T. rewrite Z.min_l by lia. assert (LP 2 = [2]) as -> by (rewrite LP_S by lia; destruct (prime_dec 2) as [|X]; [reflexivity|exfalso; apply X, prime_2]).
    assert (U2 : primes_upto 2 [2]). { split; [repeat constructor|]. intros p. cbn [In]. split; [intros [<-|[]]; split; [exact prime_2|lia]|]. intros (A & Bp). apply prime_ge_2 in A. left. lia. }
    change [2] with (pref [2] 1). rewrite (Phi_two 2 [2] v U2) by lia. rewrite <- (PS_list one 2 [2] U2). cbn. unfold one. lia. }
  assert (G : exists S', foldM (fun S p => do a <- dgetM S p; do b <- dgetM S (p - 1); if b <? a then strike 1 p b V S else Ret S) (zrange 2 (r + 1)) S0 = Ret S' /\ holds V 2 (T one (Z.max 2 r)) S' /\ dget S' 1 = Some 1).
  { destruct (Z.eq_dec r 1) as [-> |Nr]; [rewrite zrange_nil by lia; exists S0; auto|]. rewrite zrange_cons by lia. cbn [foldM]. unfold dgetM at 1. assert (I2 : In 2 V) by (apply V3; lia). rewrite (H2 2 I2 ltac:(lia)). cbn [bind].
    change (2 - 1) with 1. unfold dgetM at 1. rewrite D1. cbn [bind]. assert (T one 2 2 = 1) as ->.
    { rewrite T_done by (auto; lia). assert (U2 : primes_upto 2 [2]). { split; [repeat constructor|]. intros p. cbn [In]. split; [intros [<-|[]]; split; [exact prime_2|lia]|]. intros (A & Bp). apply prime_ge_2 in A. left. lia. } rewrite <- (PS_list one 2 [2] U2). reflexivity. }
    change (1 <? 1) with false. cbv iota. pose proof (fold_body one one_completely eq_refl ltac:(intros; unfold one; lia) n r V Hr S V1 V3 V4 2 2) as FB. unfold body in FB. destruct (FB S0 ltac:(lia) ltac:(lia) H2) as (S' & ES & HS & HS1). change (2 + 1) with 3 in *.
    cbn [bind]. unfold one in ES. rewrite ES. exists S'. rewrite Z.max_r by lia. split; [reflexivity|]. split; [exact HS|]. rewrite HS1. exact D1. }
  destruct G as (S' & -> & HS & HS1). exists S'. split; [reflexivity|].
  assert (G : forall v, In v V -> 2 <= v -> dget S' v = Some (pi v)). { intros v Hv Lv. rewrite (HS v Hv Lv). f_equal. specialize (V1 v Hv). apply T_done; auto; nia. }
  split; [intros i Hi L; apply G; [apply V2, Hi|exact L]|]. split; [|exact HS1]. destruct (Z.eqb_spec n 1) as [-> |]; [exact HS1|]. apply G; [rewrite <- (Z.div_1_r n) at 1; apply V2; lia|lia].
Qed.
