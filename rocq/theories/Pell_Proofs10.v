(** * pell_small and its companion for N^2 < D *)
From Coq Require Import ZArith List Bool Lia.
From Verif Require Import Base Py Loop Core_Model Core_Spec Classify_Model Classify_Proofs Classify_Proofs2 Pell_Model Pell_Proofs Pell_Proofs2 Pell_Proofs3 Pell_Proofs4 Pell_Proofs5 Pell_Proofs7 Pell_Proofs9.
Import ListNotations.
Open Scope Z_scope.

Lemma square_below N D : 2 <= D -> N * N < D -> N < D * D.
Proof. intros. nia. Qed.

Lemma pell_small_In fuel D N m : 2 <= D -> nonsquare D -> integer_sqrt D = Ret (Z.sqrt D) -> 4 * D < 2 ^ Z.of_nat fuel -> N < D * D ->
  exists l, pell_small fuel D N m = Ret l /\ forall x y, In (x, y) l <-> exists k, (k < m)%nat /\ x = A D (Z.sqrt D) k /\ y = B D (Z.sqrt D) k /\ sols D N x y.
Proof.
  intros HD ND E Hf HN. destruct (object_ok D fuel HD ND E Hf) as (L & L1 & L2 & L3 & L4 & EO). destruct (sqrt_range D HD ND) as (Hr & Hd). unfold pell_small. rewrite small_start_ok by auto. rewrite EO. cbn [bind].
  eexists. split; [reflexivity|]. intros x y. rewrite filter_In. rewrite (convergents_ok D _ Hr Hd L L1 L3 L4), in_map_iff. cbn [fst snd]. rewrite Z.eqb_eq. split.
  - intros ((k & Ek & Hk) & S). apply in_seq in Hk. injection Ek as <- <-. exists k. repeat split; auto; lia.
  - intros (k & Hk & -> & -> & S). split; [exists k; split; [reflexivity|apply in_seq; lia]|exact S].
Qed.

Lemma convergent_gcd d r k : 1 <= r -> r * r < d < (r + 1) * (r + 1) -> Z.gcd (A d r k) (B d r k) = 1.
Proof.
  intros Hr Hd. pose proof (det d r Hr Hd k) as D. set (g := Z.gcd (A d r k) (B d r k)). pose proof (Z.gcd_nonneg (A d r k) (B d r k)) as G. fold g in G.
  destruct (Z.gcd_divide_l (A d r k) (B d r k)) as (u & Eu). destruct (Z.gcd_divide_r (A d r k) (B d r k)) as (v & Ev). fold g in Eu, Ev. rewrite Eu, Ev in D.
  assert (W : sign k = 1 \/ sign k = -1) by (unfold sign; destruct (Nat.even k); auto).
  assert ((g | 1)) by (exists (sign k * (A d r (S k) * v - u * B d r (S k))); replace (sign k * (A d r (S k) * v - u * B d r (S k)) * g) with (sign k * (A d r (S k) * (v * g) - u * g * B d r (S k))) by ring; rewrite D; destruct W as [-> | ->]; reflexivity).
  apply Z.divide_1_r_nonneg; assumption.
Qed.

Lemma A_strict d r i j : 1 <= r -> r * r < d < (r + 1) * (r + 1) -> (i < j)%nat -> A d r i < A d r j.
Proof. intros Hr Hd H. induction H as [|j H IH]; [apply (AB_pos d r Hr Hd)|]. pose proof (AB_pos d r Hr Hd j). lia. Qed.

Section terms.
  Context (D : Z) (fuel : nat) (L : nat).
  Local Notation r := (Z.sqrt D).
  Hypothesis (Hr : 1 <= r) (Hd : r * r < D < (r + 1) * (r + 1)) (HL : (1 <= L)%nat) (EL : sq D r L = (r, 1)) (ML : forall k, (1 <= k < L)%nat -> sq D r k <> (r, 1)).

  Lemma terms_ok K : A D r K * A D r K - D * B D r K * B D r K = 1 -> (forall k, (k < K)%nat -> A D r k * A D r k - D * B D r k * B D r k <> 1) -> Z.of_nat K < 2 ^ Z.of_nat fuel ->
    run (terms_step D (fundamental_period (qi D r L))) fuel (conv_start (qi D r L), []) = Ret (map (fun k => (A D r k, B D r k)) (seq 0 K)).
  Proof using Hr Hd HL EL ML.
    intros E Min Hf. refine (run_count _ (fun z s => exists k cur, z = Z.of_nat K - Z.of_nat k /\ (k <= K)%nat /\ s = ((cur, cv D r k), map (fun k => (A D r k, B D r k)) (seq 0 k)) /\ gen D r k cur) (fun o => o = _) _ fuel (Z.of_nat K) _ _ Hf).
    - intros z s (k & cur & -> & Hk & -> & G). unfold terms_step. destruct (conv_next_ok D r Hr Hd L HL EL ML k cur G) as (cur' & -> & G').
      destruct (Z.eqb_spec (A D r k * A D r k - D * B D r k * B D r k) 1) as [E'|E'].
      + assert (k = K) as -> by (destruct (Nat.eq_dec k K); [assumption|exfalso; apply (Min k); [lia|exact E']]). reflexivity.
      + assert (k <> K) by congruence. exists (Z.of_nat K - Z.of_nat (S k)). split; [lia|]. exists (S k), cur'. repeat split; auto; try lia. f_equal. rewrite seq_S, map_app. reflexivity.
    - exists O, (pre_period (qi D r L)). repeat split; try lia. apply gen_start. exact HL.
  Qed.
End terms.

(** The multiples of a term that solve the equation. *)
Lemma multiples_ok D N ts : (forall x y, In (x, y) ts -> x * x - D * y * y <> 0) ->
  exists l, foldM (fun sols '(x, y) =>
    let k := x * x - D * y * y in
    do m <- pymod N k;
    if negb (m =? 0) then Ret sols
    else
      do q <- pydiv N k;
      do f <- is_square q;
      Ret (match f with Some f => sols ++ [(f * x, f * y)] | None => sols end)) ts [] = Ret l /\
  forall p q, In (p, q) l <-> exists x y f, In (x, y) ts /\ 0 <= f /\ N = f * f * (x * x - D * y * y) /\ p = f * x /\ q = f * y.
Proof.
  intros Nz. assert (G : forall ts acc, (forall x y, In (x, y) ts -> x * x - D * y * y <> 0) -> exists l, foldM (fun sols '(x, y) =>
    let k := x * x - D * y * y in
    do m <- pymod N k;
    if negb (m =? 0) then Ret sols
    else
      do q <- pydiv N k;
      do f <- is_square q;
      Ret (match f with Some f => sols ++ [(f * x, f * y)] | None => sols end)) ts acc = Ret l /\
    forall p q, In (p, q) l <-> In (p, q) acc \/ exists x y f, In (x, y) ts /\ 0 <= f /\ N = f * f * (x * x - D * y * y) /\ p = f * x /\ q = f * y).
  { clear ts Nz. induction ts as [|(a, b) ts IH]; intros acc Nz.
    - exists acc. split; [reflexivity|]. intros p q. split; [auto|]. intros [H|(x & y & f & [] & _)]. exact H.
    - cbn [foldM]. cbv zeta. assert (K := Nz a b (or_introl eq_refl)). assert (Nz' : forall x y, In (x, y) ts -> x * x - D * y * y <> 0) by (intros x y I; apply Nz; right; exact I).
      unfold pymod, pydiv. set (k := a * a - D * b * b) in *. destruct (Z.eqb_spec k 0) as [K0|_]; [contradiction|]. cbn [bind].
      assert (Skip : (forall f, 0 <= f -> N = f * f * k -> False) -> exists l, foldM (fun sols '(x, y) =>
        let k := x * x - D * y * y in
        do m <- (if k =? 0 then Raise ZeroDivisionError else Ret (N mod k));
        if negb (m =? 0) then Ret sols
        else
          do q <- (if k =? 0 then Raise ZeroDivisionError else Ret (N / k));
          do f <- is_square q;
          Ret (match f with Some f => sols ++ [(f * x, f * y)] | None => sols end)) ts acc = Ret l /\
        forall p q, In (p, q) l <-> In (p, q) acc \/ exists x y f, In (x, y) ((a, b) :: ts) /\ 0 <= f /\ N = f * f * (x * x - D * y * y) /\ p = f * x /\ q = f * y).
      { intros No. destruct (IH acc Nz') as (l & E & Hl). exists l. split; [exact E|]. intros p q. rewrite Hl. split; (intros [H|(x & y & f & I & R)]; [left; exact H|right]).
        - exists x, y, f. split; [right; exact I|exact R].
        - destruct I as [[= <- <-]|I]; [exfalso; apply (No f); [apply R|apply R]|]. exists x, y, f. split; [exact I|exact R]. }
      destruct (Z.eqb_spec (N mod k) 0) as [M|M]; cbn [negb].
      + assert (EN : N = N / k * k) by (pose proof (Z.div_mod N k K); lia). destruct (is_square_ok (N / k)) as [(f & Hf & Ef & ->)|(Ns & ->)]; cbn [bind].
        * destruct (IH (acc ++ [(f * a, f * b)]) Nz') as (l & E & Hl). exists l. split; [exact E|]. intros p q. rewrite Hl, in_app_iff. split.
          -- intros [[H|[[= <- <-]|[]]]|(x & y & f' & I & R)]; [left; exact H|right; exists a, b, f; split; [left; reflexivity|split; [exact Hf|split; [rewrite Ef; exact EN|split; reflexivity]]]|right; exists x, y, f'; split; [right; exact I|exact R]].
          -- intros [H|(x & y & f' & [[= <- <-]|I] & F0 & F1 & F2 & F3)]; [left; left; exact H| |right; exists x, y, f'; split; [exact I|split; [exact F0|split; [exact F1|split; assumption]]]].
             left. right. left. fold k in F1. assert (f' * f' = f * f) by (apply (Z.mul_reg_r _ _ k K); rewrite Ef; lia). assert (f' = f) by nia. subst. reflexivity.
        * apply Skip. intros f F0 F1. apply (Ns f). apply (Z.mul_reg_r _ _ k K). lia.
      + apply Skip. intros f F0 F1. apply M. rewrite F1. apply Z.mod_mul, K. }
  destruct (G ts [] Nz) as (l & E & Hl). exists l. split; [exact E|]. intros p q. rewrite Hl. split; [intros [[]|H]; exact H|intros H; right; exact H].
Qed.

Lemma small_minimal_ok fuel D N u v : 2 <= D -> nonsquare D -> integer_sqrt D = Ret (Z.sqrt D) -> 4 * D < 2 ^ Z.of_nat fuel -> N <> 0 -> N * N < D -> least_solution D 1 u v ->
  exists l, pell_small_minimal_positive_solutions fuel D N = Ret l /\ forall x y, In (x, y) l <-> 1 <= x /\ 1 <= y /\ sols D N x y /\ x / Z.gcd x y < u.
Proof.
  intros HD ND E Hf N0 HN (Hu & Hv & Su & Least). destruct (object_ok D fuel HD ND E Hf) as (L & L1 & L2 & L3 & L4 & EO). destruct (sqrt_range D HD ND) as (Hr & Hd).
  destruct (unit_exists D _ Hr Hd L L1 L3 L4 1 (or_introl eq_refl)) as (K0 & HK0 & EK0). destruct (first_norm D _ 1 K0 EK0) as (K & HK & EK & Min).
  set (r := Z.sqrt D) in *. assert (EuK : u = A D r K).
  { pose proof (AB_pos D r Hr Hd K) as (P1 & P2 & _). destruct (Least (A D r K) (B D r K) P1 P2 EK) as (Le & _). destruct (unit_is_convergent D r Hr Hd u v 1 Hu Hv (or_introl eq_refl) Su) as (j & Ej & Ej').
    destruct (Nat.lt_ge_cases j K) as [J|J]; [exfalso; apply (Min j J); rewrite <- Ej, <- Ej'; exact Su|]. pose proof (A_mono D r Hr Hd K j J). lia. }
  unfold pell_small_minimal_positive_solutions. rewrite small_start_ok by (auto; apply square_below; assumption). rewrite EO. cbn [bind].
  assert (T : Z.of_nat K < 2 ^ Z.of_nat fuel) by lia. apply (terms_ok D fuel L Hr Hd L1 L3 L4 K EK Min) in T. fold r in T. rewrite T. cbn [bind]. clear T.
  assert (Nz : forall x y, In (x, y) (map (fun k => (A D r k, B D r k)) (seq 0 K)) -> x * x - D * y * y <> 0).
  { intros x y I. apply in_map_iff in I as (k & [= <- <-] & _). rewrite (norm D r Hr Hd k). pose proof (Qn_pos D r Hr Hd (S k)). unfold sign. destruct (Nat.even k); lia. }
  destruct (multiples_ok D N _ Nz) as (l & EF & Hl). cbn [bind] in EF. rewrite EF. cbn [bind]. eexists. split; [reflexivity|]. intros x y. rewrite pair_sort_In, Hl. split.
  - intros (a & b & f & I & F0 & F1 & -> & ->). apply in_map_iff in I as (k & [= <- <-] & Ik). apply in_seq in Ik. pose proof (AB_pos D r Hr Hd k) as (P1 & P2 & _).
    assert (1 <= f) by (destruct (Z.eq_dec f 0) as [-> |]; lia). assert (G : Z.gcd (f * A D r k) (f * B D r k) = f) by (rewrite Z.gcd_mul_mono_l_nonneg, convergent_gcd by (auto; lia); lia).
    split; [nia|]. split; [nia|]. split; [unfold sols; rewrite F1; ring|]. rewrite G, Z.mul_comm, Z.div_mul by lia. rewrite EuK. apply A_strict; auto. lia.
  - intros (Hx & Hy & S & Hlt). set (g := Z.gcd x y) in *. assert (G0 : 0 < g) by (pose proof (Z.gcd_nonneg x y); destruct (Z.eq_dec g 0) as [Z0|]; [apply Z.gcd_eq_0_l in Z0; lia|unfold g in *; lia]).
    destruct (Z.gcd_divide_l x y) as (x' & Ex). destruct (Z.gcd_divide_r x y) as (y' & Ey). fold g in Ex, Ey.
    assert (Hx' : 1 <= x') by nia. assert (Hy' : 1 <= y') by nia.
    assert (Gp : Z.gcd x' y' = 1). { apply (Z.mul_reg_l _ _ g); [lia|]. rewrite <- Z.gcd_mul_mono_l_nonneg by lia. rewrite (Z.mul_comm g x'), (Z.mul_comm g y'), <- Ex, <- Ey. unfold g. lia. }
    set (n' := x' * x' - D * y' * y'). assert (EN : N = g * g * n') by (unfold n'; rewrite <- S; rewrite Ex, Ey; ring).
    assert (n0 : n' <> 0) by (intros Z0; rewrite Z0 in EN; lia). assert (n1 : n' * n' < D).
    { assert (1 <= g * g) by nia. assert (n' * n' <= N * N) by (rewrite EN; replace (g * g * n' * (g * g * n')) with ((g * g) * (g * g) * (n' * n')) by ring; assert (1 <= g * g * (g * g)) by nia; assert (0 <= n' * n') by nia; nia). lia. }
    destruct (small_norm_convergent D r Hr Hd x' y' n' Hx' Hy' Gp n0 n1 eq_refl) as (k & Ek & Ek').
    exists x', y', g. split; [|split; [lia|split; [exact EN|split; lia]]].
    apply in_map_iff. exists k. split; [rewrite Ek, Ek'; reflexivity|]. apply in_seq. split; [lia|]. cbn.
    rewrite Ex, Z.div_mul in Hlt by lia. destruct (Nat.lt_ge_cases k K) as [J|J]; [exact J|]. pose proof (A_mono D r Hr Hd K k J). lia.
Qed.
