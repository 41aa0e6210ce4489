(** * Correctness of factor *)
From Coq Require Import ZArith List Bool Lia Znumtheory Sorted Permutation.
From Verif Require Import Base Loop Dict Lists Lists2 NT PrimeList_Data PrimeList_Proofs Primality_Model
  Primality_Proofs Classify_Model Factor_Model Factor_Spec NT_Euler Rho_Proofs.
Import ListNotations.
Open Scope Z_scope.

Lemma fac_value_cons p e l : fac_value ((p, e) :: l) = p ^ e * fac_value l.
Proof. reflexivity. Qed.

Lemma fac_value_app l l' : fac_value (l ++ l') = fac_value l * fac_value l'.
Proof. unfold fac_value. rewrite map_app. apply zprod_app. Qed.

Lemma fac_value_perm l l' : Permutation l l' -> fac_value l = fac_value l'.
Proof. intros H. unfold fac_value. apply zprod_perm, Permutation_map, H. Qed.

(** Well-formed dictionaries of exponents; [s] is the entry of [-1]. *)
Definition good (s : option Z) (P : Z -> Prop) (d : list (Z * Z)) : Prop :=
  NoDup (dkeys d) /\ (forall p e, In (p, e) d -> (P p \/ p = -1) /\ 1 <= e) /\ dget d (-1) = s.

Lemma dadd_value d p : (forall q e, In (q, e) d -> 1 <= e) -> fac_value (dadd d p 1) = p * fac_value d.
Proof.
  intros H. unfold dadd. induction d as [|[q e] d IH].
  - cbn [dget dset]. rewrite fac_value_cons. unfold fac_value. cbn [map]. rewrite zprod_nil.
    rewrite Z.add_0_l, Z.pow_1_r. ring.
  - cbn [dget dset]. destruct (Z.eqb_spec q p) as [->|].
    + rewrite !fac_value_cons, Z.pow_add_r, Z.pow_1_r; [ring| |lia].
      specialize (H p e (or_introl eq_refl)). lia.
    + rewrite !fac_value_cons, IH; [ring|]. intros q' e' Hq. apply (H q' e'). right. exact Hq.
Qed.

Lemma dadd_good s P d p : good s P d -> P p -> 0 <= p -> good s P (dadd d p 1).
Proof.
  intros (N & G & S) Hp Hp0. unfold dadd. split; [apply dset_NoDup, N|]. split.
  - intros q e H. apply dget_In in H; [|apply dset_NoDup, N]. rewrite dget_dset in H.
    destruct (Z.eqb_spec p q) as [->|].
    + injection H as <-. split; [left; exact Hp|]. destruct (dget d q) eqn:E; [|lia].
      apply dget_Some_In, G in E. lia.
    + apply dget_Some_In, G in H. exact H.
  - rewrite dget_dset_other by lia. exact S.
Qed.

Lemma strip_ok s P p n fac : 2 <= p -> 1 <= n -> good s P fac -> ((p | n) -> P p) ->
  exists n' fac', strip p n fac = Ret (n', fac') /\ 1 <= n' <= n /\ (n' | n) /\ ~ (p | n') /\
    ((p | n) -> n' < n) /\
    good s P fac' /\ fac_value fac' * n' = fac_value fac * n.
Proof.
  intros Hp Hn Hg HP. unfold strip.
  refine (run_rule _ (fun t => let '(m, f) := t in 1 <= m <= n /\ (m | n) /\ good s P f /\ (m = n \/ (p | n)) /\
      ((p | n) -> (p | m) \/ m < n) /\
      fac_value f * m = fac_value fac * n) (fun s => fst s)
    (fun o => exists n' fac', o = Ret (n', fac') /\ 1 <= n' <= n /\ (n' | n) /\ ~ (p | n') /\
      ((p | n) -> n' < n) /\
      good s P fac' /\ fac_value fac' * n' = fac_value fac * n) _ _ _ _ _).
  - intros [m f] (Hm & D & G & Hc & Hlt & V). unfold strip_step.
    destruct (Z.eqb_spec (m mod p) 0) as [E|E].
    + apply Z.mod_divide in E; [|lia]. destruct E as [q Eq].
      assert (Edq : m / p = q) by (rewrite Eq; apply Z.div_mul; lia). rewrite Edq. cbn [fst].
      assert (Hq : 1 <= q < m) by nia.
      assert (Dpn : (p | n)) by (apply Z.divide_trans with m; [exists q; exact Eq|exact D]).
      split; [|lia]. split; [lia|]. split; [apply Z.divide_trans with m; [exists p; lia|exact D]|].
      split; [apply dadd_good; [exact G|exact (HP Dpn)|lia]|]. split; [right; exact Dpn|].
      split; [intros _; right; lia|].
      rewrite dadd_value by (intros q' e' H; apply G in H; lia). rewrite <- V, Eq. ring.
    + assert (~ (p | m)) by (intros X; apply E, Z.mod_divide; [lia|exact X]).
      exists m, f. split; [reflexivity|]. split; [lia|]. split; [exact D|]. split; [assumption|].
      split; [intros X; destruct (Hlt X); [contradiction|assumption]|]. auto.
  - split; [lia|]. split; [apply Z.divide_refl|]. split; [exact Hg|]. split; [left; reflexivity|]. 
    split; [intros X; left; exact X|]. reflexivity.
  - cbn [fst]. pose proof (bits_spec (n + 1)). lia.
Qed.

(** ** The table phase *)
Definition rough (B n : Z) : Prop := forall q, prime q -> (q | n) -> B < q.

Lemma strip_small_ok s (P : Z -> Prop) N (HP : forall q, prime q -> (q | N) -> P q) : forall l pre n fac,
  PRIME_LIST = pre ++ l -> 1 <= n -> (n | N) -> (forall q, In q pre -> ~ (q | n)) -> good s P fac ->
  exists n' fac', strip_small l n fac = Ret (n', fac') /\ 1 <= n' <= n /\ (n' | n) /\
    good s P fac' /\ fac_value fac' * n' = fac_value fac * n /\ rough 1000000 n'.
Proof.
  induction l as [|p l IH]; intros pre n fac E Hn HnN Hpre G; cbn [strip_small].
  - exists n, fac. split; [reflexivity|]. split; [lia|]. split; [apply Z.divide_refl|]. split; [exact G|].
    split; [reflexivity|]. intros q Hq Hd. destruct (Z_lt_le_dec 1000000 q) as [|Hle]; [assumption|exfalso].
    apply (Hpre q); [|exact Hd]. rewrite app_nil_r in E. rewrite <- E. apply PRIME_LIST_In. split; assumption.
  - assert (Hp : prime p /\ p <= 1000000).
    { apply PRIME_LIST_In. rewrite E. apply in_or_app. right. left. reflexivity. }
    destruct Hp as [Hp Hp6]. pose proof (prime_ge2 p Hp) as Hp2.
    destruct (Z.eqb_spec n 1) as [->|Hn1].
    + exists 1, fac. split; [reflexivity|]. split; [lia|]. split; [apply Z.divide_refl|]. split; [exact G|].
      split; [reflexivity|]. intros q Hq Hd. apply Z.divide_1_r in Hd. pose proof (prime_ge2 q Hq). lia.
    + destruct (Z.ltb_spec n (p * p)) as [Hlt|Hge].
      * assert (Hprime : prime n).
        { apply prime_sqrt; [lia|]. intros q Hq Hqq Hd. assert (Hqp : q < p) by (pose proof (prime_ge2 q Hq); nia).
          apply (Hpre q); [|exact Hd].
          assert (Hin : In q PRIME_LIST) by (apply PRIME_LIST_In; split; [exact Hq|lia]).
          rewrite E in Hin. apply in_app_or in Hin as [Hin|Hin]; [exact Hin|exfalso].
          pose proof PRIME_LIST_sorted as S. rewrite E in S.
          apply SSorted_app_inv in S as (_ & S & _). inversion S as [|? ? S1 S2]; subst.
          destruct Hin as [->|Hin]; [lia|]. rewrite Forall_forall in S2. specialize (S2 q Hin). lia. }
        exists 1, (dadd fac n 1). split; [reflexivity|]. split; [lia|]. split; [apply Z.divide_1_l|].
        split; [apply dadd_good; [exact G|apply HP; assumption|lia]|]. split.
        { rewrite dadd_value by (intros q' e' H; apply G in H; lia). ring. }
        intros q Hq Hd. apply Z.divide_1_r in Hd. pose proof (prime_ge2 q Hq). lia.
      * destruct (strip_ok s P p n fac Hp2 Hn G (fun D => HP p Hp (Z.divide_trans _ _ _ D HnN))) as (n1 & f1 & E1 & Hn1' & D1 & ND1 & _ & G1 & V1).
        rewrite E1. cbn [bind].
        destruct (IH (pre ++ [p]) n1 f1) as (n2 & f2 & E2 & Hn2 & D2 & G2 & V2 & R2).
        { rewrite <- app_assoc. exact E. }
        { lia. }
        { apply Z.divide_trans with n; assumption. }
        { intros q Hq. apply in_app_or in Hq as [Hq|[<-|[]]]; [|exact ND1].
          intros X. apply (Hpre q Hq). apply Z.divide_trans with n1; assumption. }
        { exact G1. }
        exists n2, f2. split; [exact E2|]. split; [lia|]. split; [apply Z.divide_trans with n1; assumption|].
        split; [exact G2|]. split; [lia|exact R2].
Qed.

Lemma rough_prime n : 1 < n -> rough 1000000 n -> n <= 1000000000000 -> prime n.
Proof.
  intros H R L. apply prime_sqrt; [lia|]. intros q Hq Hqq Hd. specialize (R q Hq Hd). nia.
Qed.

Lemma rough_divide B n d : rough B n -> (d | n) -> rough B d.
Proof. intros R D q Hq Hd. apply R; [exact Hq|]. apply Z.divide_trans with d; assumption. Qed.

(** ** Sorting *)
Lemma kinsert_perm x l : Permutation (kinsert x l) (x :: l).
Proof.
  induction l as [|y l IH]; cbn [kinsert]; [reflexivity|].
  destruct (_ || _); [reflexivity|]. rewrite IH. apply perm_swap.
Qed.
Lemma ksort_perm l : Permutation (ksort l) l.
Proof. induction l as [|x l IH]; cbn [ksort]; [reflexivity|]. rewrite kinsert_perm, IH. reflexivity. Qed.

Lemma kinsert_sorted x l : ~ In (fst x) (map fst l) ->
  StronglySorted (fun a b => fst a < fst b) l -> StronglySorted (fun a b => fst a < fst b) (kinsert x l).
Proof.
  induction l as [|y l IH]; cbn [kinsert map In]; intros N S; [repeat constructor|].
  inversion S as [|? ? S1 S2]; subst.
  destruct (Z.ltb_spec (fst x) (fst y)) as [H|H]; cbn [orb].
  - constructor; [exact S|]. constructor; [exact H|]. eapply Forall_impl; [|exact S2]. cbn. lia.
  - destruct (Z.eqb_spec (fst x) (fst y)) as [E|E]; [exfalso; apply N; left; lia|]. cbn [andb].
    constructor; [apply IH; tauto|].
    apply Forall_forall. intros z Hz. rewrite kinsert_perm in Hz. destruct Hz as [<-|Hz]; [lia|].
    rewrite Forall_forall in S2. apply S2, Hz.
Qed.

Lemma ksort_sorted l : NoDup (map fst l) -> StronglySorted (fun a b => fst a < fst b) (ksort l).
Proof.
  induction l as [|x l IH]; cbn [ksort map]; intros N; [constructor|]. inversion N as [|? ? N1 N2]; subst.
  apply kinsert_sorted; [|auto]. intros H. apply N1.
  apply (Permutation_in _ (Permutation_map fst (ksort_perm l))), H.
Qed.

(** ** The second phase *)
(** A base is prime, or it passed the probabilistic test and exceeds [10^12]. *)
Definition base_ok (N : Z) (q : Z) : Prop :=
  (prime q \/ (is_probable_prime q = Ret true /\ 10 ^ 12 < q)) /\ (q | N).

Section Find.
  Context (find : nat -> Z -> outcome Z).
  (** Whatever [_factor] returns is a divisor greater than 1. *)
  Hypothesis find_sound : forall i m d, 1 < m -> find i m = Ret d -> (d | m) /\ 1 < d.

  Lemma rough_base N q : 1 < q -> rough 1000000 q -> (q | N) -> is_probable_prime q = Ret true -> base_ok N q.
  Proof.
    intros H R D E. split; [|exact D].
    destruct (Z_lt_le_dec 1000000000000 q) as [L|L]; [right; split; [exact E|exact L]|].
    left. apply rough_prime; assumption.
  Qed.

  Lemma refine_ok fuel n i d : (d | n) -> 1 < d ->
    match run (refine_step find) fuel (i, d) with
    | Ret (_, d') => (d' | n) /\ 1 < d' /\ is_probable_prime d' = Ret true
    | _ => True
    end.
  Proof.
    intros D H.
    destruct (run_partial (refine_step find) (fun s => (snd s | n) /\ 1 < snd s)
      (fun o => match o with Ret (_, d') => (d' | n) /\ 1 < d' /\ is_probable_prime d' = Ret true | _ => True end))
      with (n := fuel) (s := (i, d)) as [E|E].
    - intros [j x] [Dx Hx]. cbn [snd] in *. unfold refine_step.
      destruct (is_probable_prime_total x) as (b & Eb). rewrite Eb. destruct b; [auto|].
      destruct (find j x) as [d'|e|] eqn:F; [|exact I|exact I]. cbn [snd].
      destruct (find_sound j x d' Hx F). split; [|assumption]. apply Z.divide_trans with x; assumption.
    - cbn [snd]. auto.
    - rewrite E. exact I.
    - exact E.
  Qed.

  Lemma big_ok s N fuel fuel' i n fac : 1 <= n -> rough 1000000 n -> (n | N) -> good s (base_ok N) fac ->
    forall fac', run (big_step find fuel) fuel' (i, n, fac) = Ret fac' ->
    good s (base_ok N) fac' /\ fac_value fac' = fac_value fac * n.
  Proof.
    intros Hn R D G fac' E.
    destruct (run_partial (big_step find fuel)
      (fun t => let '(_, m, f) := t in 1 <= m /\ rough 1000000 m /\ (m | N) /\ good s (base_ok N) f /\
                  fac_value f * m = fac_value fac * n)
      (fun o => forall fac', o = Ret fac' -> good s (base_ok N) fac' /\ fac_value fac' = fac_value fac * n))
      with (n := fuel') (s := (i, n, fac)) as [X|X].
    - intros [[j m] f] (Hm & Rm & Dm & Gf & V). unfold big_step.
      destruct (Z.ltb_spec 1 m) as [H1|H1].
      + destruct (is_probable_prime_total m) as (b & Eb). rewrite Eb. destruct b.
        * split; [lia|]. split; [intros q Hq Hd; apply Z.divide_1_r in Hd; pose proof (prime_ge2 q Hq); lia|].
          split; [apply Z.divide_1_l|]. split; [apply dadd_good; [exact Gf|apply rough_base; assumption|lia]|].
          rewrite dadd_value by (intros q' e' H; apply Gf in H; lia). lia.
        * destruct (find j m) as [d|e|] eqn:F; cbn [bind]; [|intros; discriminate|intros; discriminate].
          destruct (find_sound j m d H1 F) as [Dd Hd].
          pose proof (refine_ok fuel m (S j) d Dd Hd) as HR.
          destruct (run (refine_step find) fuel (S j, d)) as [[j' d']|e|]; cbn [bind];
            [|intros; discriminate|intros; discriminate].
          destruct HR as (Dd' & Hd' & Pd').
          assert (B : base_ok N d').
          { apply rough_base; [exact Hd'|apply rough_divide with m; assumption|
              apply Z.divide_trans with m; assumption|exact Pd']. }
          destruct (strip_ok s (base_ok N) d' m f ltac:(lia) Hm Gf (fun _ => B))
            as (m' & f' & Es & Hm' & Dm' & _ & _ & Gf' & V').
          rewrite Es. cbn [bind]. split; [lia|]. split; [apply rough_divide with m; assumption|].
          split; [apply Z.divide_trans with m; assumption|]. split; [exact Gf'|lia].
      + intros f' Ef. injection Ef as <-. split; [exact Gf|]. assert (m = 1) by lia. subst m. lia.
    - split; [exact Hn|]. split; [exact R|]. split; [exact D|]. split; [exact G|reflexivity].
    - rewrite X in E. discriminate.
    - apply X, E.
  Qed.

  Lemma map_mul_1 (f : list (Z * Z)) : map (fun '(p, e) => (p, e * 1)) f = f.
  Proof.
    induction f as [|[p e] f IH]; [reflexivity|]. cbn [map]. rewrite IH, Z.mul_1_r. reflexivity.
  Qed.

  Lemma base_ge2 N q : base_ok N q -> 0 < N -> 2 <= q.
  Proof.
    intros [[H|[_ H]] _] _; [apply prime_ge2, H|lia].
  Qed.

  Lemma ksort_final s N f : 0 < N -> good s (base_ok N) f -> s = None \/ s = Some 1 ->
    match s with
    | None => gen_factorization (base_ok N) (fac_value f) (ksort f)
    | Some _ => exists l', ksort f = (-1, 1) :: l' /\ gen_factorization (base_ok N) (- fac_value f) l'
    end.
  Proof.
    intros HN (ND & G & S) Hs. pose proof (ksort_sorted f ND) as Sf.
    assert (In_f : forall x, In x (ksort f) <-> In x f).
    { intros x. split; intros H; [apply (Permutation_in _ (ksort_perm f)), H|
        apply (Permutation_in _ (Permutation_sym (ksort_perm f))), H]. }
    pose proof (fac_value_perm _ _ (ksort_perm f)) as V.
    destruct Hs as [-> | ->].
    - split; [exact Sf|]. split; [|exact V]. intros p e H. apply In_f in H. pose proof (G p e H) as [[X|X] Y].
      + split; assumption.
      + subst p. apply dget_In in H; [|exact ND]. congruence.
    - apply dget_Some_In, In_f in S as Hin.
      destruct (ksort f) as [|[p e] l'] eqn:E; [destruct Hin|].
      inversion Sf as [|? ? S1 S2]; subst. rewrite Forall_forall in S2.
      assert (Hp : (p, e) = (-1, 1)).
      { destruct Hin as [H|H]; [exact H|exfalso]. specialize (S2 _ H). cbn in S2.
        assert (In (p, e) f) as X by (apply In_f; left; reflexivity).
        apply G in X as [[X|X] _]; [apply base_ge2 in X; [lia|exact HN]|lia]. }
      rewrite Hp in *. exists l'. split; [reflexivity|]. split; [exact S1|]. split.
      + intros q k Hq. assert (In (q, k) f) as X by (apply In_f; right; exact Hq).
        apply G in X as [[X|X] Y]; [split; assumption|]. subst q. specialize (S2 _ Hq). cbn in S2. lia.
      + rewrite <- V, fac_value_cons. change ((-1) ^ 1) with (-1). lia.
  Qed.

  Lemma prime_base N q : prime q -> (q | N) -> base_ok N q.
  Proof. intros H D. split; [left; exact H|exact D]. Qed.

  Lemma good_nil P : good None P [].
  Proof. split; [constructor|]. split; [intros p e []|reflexivity]. Qed.

  Lemma good_minus P : good (Some 1) P [(-1, 1)].
  Proof.
    split; [repeat constructor; intros []|]. split; [|reflexivity].
    intros p e [H|[]]. injection H as <- <-. split; [right; reflexivity|lia].
  Qed.

  (** The computation on [|n|], from an initial dictionary. *)
  Definition factor_abs (fuel : nat) (n : Z) (fac : list (Z * Z)) : outcome (list (Z * Z)) :=
    do '(n, fac) <- strip_small PRIME_LIST n fac;
    run (big_step find fuel) fuel (O, n, fac).

  Lemma factor_main_abs fuel n : factor_main find fuel n 1 =
    (do fac <- (if n <? 0 then factor_abs fuel (- n) [(-1, 1)] else factor_abs fuel n []); Ret (ksort fac)).
  Proof.
    unfold factor_main, factor_abs. destruct (n <? 0).
    - destruct (strip_small PRIME_LIST (- n) _) as [[m f]|e|]; cbn [bind]; [|reflexivity|reflexivity].
      destruct (run _ _ _); cbn [bind]; [|reflexivity|reflexivity]. rewrite map_mul_1. reflexivity.
    - destruct (strip_small PRIME_LIST n _) as [[m f]|e|]; cbn [bind]; [|reflexivity|reflexivity].
      destruct (run _ _ _); cbn [bind]; [|reflexivity|reflexivity]. rewrite map_mul_1. reflexivity.
  Qed.

  Lemma factor_abs_sound s fuel n fac f : 0 < n -> good s (base_ok n) fac -> factor_abs fuel n fac = Ret f ->
    good s (base_ok n) f /\ fac_value f = fac_value fac * n.
  Proof.
    intros Hn G E. unfold factor_abs in E.
    destruct (strip_small_ok s (base_ok n) n (prime_base n) PRIME_LIST [] n fac)
      as (n1 & f1 & E1 & Hn1 & D1 & G1 & V1 & R1); [reflexivity|lia|apply Z.divide_refl|intros q []|exact G|].
    rewrite E1 in E. cbn [bind] in E.
    destruct (big_ok s n fuel fuel O n1 f1 ltac:(lia) R1 D1 G1 f E) as [G2 V2].
    split; [exact G2|lia].
  Qed.

  Theorem factor_main_sound fuel n l : n <> 0 -> factor_main find fuel n 1 = Ret l ->
    signed_factorization (base_ok (Z.abs n)) n l.
  Proof.
    intros Hn0 E. rewrite factor_main_abs in E.
    destruct (Z.ltb_spec n 0) as [Hn|Hn].
    - destruct (factor_abs fuel (- n) [(-1, 1)]) as [f|e|] eqn:F; cbn [bind] in E; [|discriminate|discriminate].
      injection E as <-. replace (Z.abs n) with (- n) by lia. right. split; [exact Hn|].
      destruct (factor_abs_sound (Some 1) fuel (- n) [(-1, 1)] f ltac:(lia) (good_minus _) F) as [G V].
      destruct (ksort_final (Some 1) (- n) f ltac:(lia) G (or_intror eq_refl)) as (l' & E & GF).
      exists l'. split; [exact E|]. replace (- n) with (- fac_value f) at 2; [exact GF|].
      rewrite V, fac_value_cons. change ((-1) ^ 1) with (-1). unfold fac_value. cbn [map]. rewrite zprod_nil. lia.
    - destruct (factor_abs fuel n []) as [f|e|] eqn:F; cbn [bind] in E; [|discriminate|discriminate].
      injection E as <-. replace (Z.abs n) with n by lia. left. split; [lia|].
      destruct (factor_abs_sound None fuel n [] f ltac:(lia) (good_nil _) F) as [G V].
      replace n with (fac_value f) at 2; [apply (ksort_final None n f ltac:(lia) G (or_introl eq_refl))|].
      rewrite V. unfold fac_value. cbn [map]. rewrite zprod_nil. lia.
  Qed.

  (** No random choice is made up to [10^12]. *)
  Lemma factor_abs_small fuel n fac s : 0 < n <= 10 ^ 12 -> (1 <= fuel)%nat -> good s (base_ok n) fac ->
    exists f, factor_abs fuel n fac = Ret f.
  Proof.
    intros Hn Hf G. unfold factor_abs.
    destruct (strip_small_ok s (base_ok n) n (prime_base n) PRIME_LIST [] n fac)
      as (n1 & f1 & E1 & Hn1 & D1 & G1 & V1 & R1); [reflexivity|lia|apply Z.divide_refl|intros q []|exact G|].
    rewrite E1. cbn [bind].
    assert (X : exists f, run (big_step find fuel) 1 (O, n1, f1) = Ret f).
    { unfold run. cbn [wl]. unfold big_step at 1. destruct (Z.ltb_spec 1 n1) as [H1|H1].
      - assert (P : prime n1) by (apply rough_prime; [exact H1|exact R1|lia]).
        rewrite (is_probable_prime_prime n1 P). unfold big_step. cbn. eauto.
      - eauto. }
    destruct X as (f & X). exists f. rewrite (run_more _ 1); [exact X|congruence|exact Hf].
  Qed.

  Theorem factor_main_small fuel n : n <> 0 -> Z.abs n <= 10 ^ 12 -> (1 <= fuel)%nat ->
    exists l, factor_main find fuel n 1 = Ret l.
  Proof.
    intros H0 Hn Hf. rewrite factor_main_abs. destruct (Z.ltb_spec n 0).
    - destruct (factor_abs_small fuel (- n) [(-1, 1)] (Some 1)) as (f & E); [lia|exact Hf|apply good_minus|].
      rewrite E. cbn [bind]. eauto.
    - destruct (factor_abs_small fuel n [] None) as (f & E); [lia|exact Hf|apply good_nil|].
      rewrite E. cbn [bind]. eauto.
  Qed.

  (** Termination when [_factor] always finds a proper divisor of a composite. *)
  Hypothesis find_lucky : forall i m, 1 < m -> ~ prime m -> exists d, find i m = Ret d /\ d < m.

  Lemma refine_total fuel i d : 1 < d -> d < 2 ^ Z.of_nat fuel ->
    exists i' d', run (refine_step find) fuel (i, d) = Ret (i', d').
  Proof.
    intros Hd Hf.
    refine (run_rule _ (fun s => 1 < snd s) snd (fun o => exists i' d', o = Ret (i', d')) _ _ _ _ _);
      [|exact Hd|exact Hf].
    intros [j x] Hx. cbn [snd] in *. unfold refine_step.
    destruct (is_probable_prime_total x) as (b & Eb). rewrite Eb. destruct b; [eauto|].
    assert (NP : ~ prime x) by (intros X; apply is_probable_prime_prime in X; congruence).
    destruct (find_lucky j x Hx NP) as (d' & F & L). rewrite F. cbn [snd].
    destruct (find_sound j x d' Hx F). split; lia.
  Qed.

  Lemma big_total fuel i n fac s N : 1 <= n -> n < 2 ^ Z.of_nat fuel -> rough 1000000 n -> (n | N) ->
    good s (base_ok N) fac -> exists f, run (big_step find fuel) fuel (i, n, fac) = Ret f.
  Proof.
    intros Hn Hf R D G.
    refine (run_rule _ (fun t => let '(_, m, f) := t in 1 <= m <= n /\ rough 1000000 m /\ (m | N) /\
       good s (base_ok N) f) (fun t => snd (fst t)) (fun o => exists f, o = Ret f) _ _ _ _ _); [| |exact Hf].
    - intros [[j m] f] (Hm & Rm & Dm & Gf). unfold big_step.
      destruct (Z.ltb_spec 1 m) as [H1|H1]; [|eauto].
      destruct (is_probable_prime_total m) as (b & Eb). rewrite Eb. destruct b.
      + cbn [fst snd]. split; [|lia]. split; [lia|].
        split; [intros q Hq Hd; apply Z.divide_1_r in Hd; pose proof (prime_ge2 q Hq); lia|].
        split; [apply Z.divide_1_l|]. apply dadd_good; [exact Gf|apply rough_base; assumption|lia].
      + assert (NP : ~ prime m) by (intros X; apply is_probable_prime_prime in X; congruence).
        destruct (find_lucky j m H1 NP) as (d & F & L). rewrite F. cbn [bind].
        destruct (find_sound j m d H1 F) as [Dd Hd].
        pose proof (refine_ok fuel m (S j) d Dd Hd) as HR.
        destruct (refine_total fuel (S j) d Hd ltac:(lia)) as (i' & d' & Er). rewrite Er in *. cbn [bind].
        destruct HR as (Dd' & Hd' & Pd').
        assert (B : base_ok N d').
        { apply rough_base; [exact Hd'|apply rough_divide with m; assumption|
            apply Z.divide_trans with m; assumption|exact Pd']. }
        destruct (strip_ok s (base_ok N) d' m f ltac:(lia) ltac:(lia) Gf (fun _ => B))
          as (m' & f' & Es & Hm' & Dm' & _ & Hlt & Gf' & V').
        rewrite Es. cbn [bind fst snd]. specialize (Hlt Dd'). split; [|lia]. split; [lia|].
        split; [apply rough_divide with m; assumption|].
        split; [apply Z.divide_trans with m; assumption|]. exact Gf'.
    - split; [lia|]. auto.
  Qed.

  Theorem factor_main_total fuel n : n <> 0 -> Z.abs n < 2 ^ Z.of_nat fuel ->
    exists l, factor_main find fuel n 1 = Ret l.
  Proof.
    assert (X : forall s m fac, 0 < m -> m < 2 ^ Z.of_nat fuel -> good s (base_ok m) fac ->
      exists f, factor_abs fuel m fac = Ret f).
    { intros s m fac Hm Hf G. unfold factor_abs.
      destruct (strip_small_ok s (base_ok m) m (prime_base m) PRIME_LIST [] m fac)
        as (n1 & f1 & E1 & Hn1 & D1 & G1 & V1 & R1); [reflexivity|lia|apply Z.divide_refl|intros q []|exact G|].
      rewrite E1. cbn [bind]. apply (big_total fuel O n1 f1 s m); [lia|lia|exact R1|exact D1|exact G1]. }
    intros H0 Hf. rewrite factor_main_abs. destruct (Z.ltb_spec n 0).
    - destruct (X (Some 1) (- n) [(-1, 1)]) as (f & E); [lia|lia|apply good_minus|]. rewrite E. cbn [bind]. eauto.
    - destruct (X None n []) as (f & E); [lia|lia|apply good_nil|]. rewrite E. cbn [bind]. eauto.
  Qed.
End Find.

Lemma rho_find_sound rnd i m d : 1 < m -> rho_find rnd i m = Ret d -> (d | m) /\ 1 < d.
Proof.
  intros Hm H. unfold rho_find in H. destruct (Z_lt_le_dec m 4) as [L|L].
  - unfold pollard_rho_brent in H. destruct (Z.ltb_spec (m - 3) 1); [discriminate|lia].
  - destruct (pollard_rho_brent_ok m (fst (rnd i)) L (snd (rnd i))) as (g & E & D & G). rewrite E in H.
    injection H as <-. auto.
Qed.

Lemma gen_factorization_impl (P Q : Z -> Prop) n l : (forall q, P q -> Q q) ->
  gen_factorization P n l -> gen_factorization Q n l.
Proof. intros H (S & A & V). split; [exact S|]. split; [|exact V]. intros p e X. apply A in X as [X Y]. auto. Qed.

Lemma signed_factorization_impl (P Q : Z -> Prop) n l : (forall q, P q -> Q q) ->
  signed_factorization P n l -> signed_factorization Q n l.
Proof.
  intros H [[X G]|[X (l' & E & G)]]; [left|right]; (split; [exact X|]).
  - exact (gen_factorization_impl P Q n l H G).
  - exists l'. split; [exact E|exact (gen_factorization_impl P Q _ l' H G)].
Qed.
