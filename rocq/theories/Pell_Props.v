(** * C27: continued fractions and Pell equations *)
From Coq Require Import ZArith List Lia Bool Sorted.
From Verif Require Import Base Py Loop Core_Model Core_Spec Core_Props Float2_Proofs Pell_Model Pell_Spec Pell_Proofs Pell_Proofs2 Pell_Proofs3 Pell_Proofs4 Pell_Proofs5 Pell_Proofs6 Pell_Proofs7.
From Verif Require Import Sqrt_Model Sqrt_Proofs3 Ord_Proofs QR_Props.
Import ListNotations.
Open Scope Z_scope.

Lemma exact_sqrt d : 0 <= d -> exact_range d -> integer_sqrt d = Ret (Z.sqrt d).
Proof.
  intros H0 H. destruct (C04_integer_sqrt_exact d) as (r & E & Hr & R); [destruct H; [left; lia|right; assumption]|]. rewrite E. f_equal. rewrite !Z.pow_2_r in R. symmetry. apply Z.sqrt_unique. unfold Z.succ. lia.
Qed.
Lemma pos2 d : 0 < d -> not_square d -> 2 <= d.
Proof. intros H N. specialize (N 1). lia. Qed.

(** convergents() of any continued fraction object: the values follow the recurrence on the values of partial_quotients(), and
    consecutive ones have determinant (-1)^k. *)
Theorem C27_convergents c m : exists x y, convergents_of (fun k => nth k (partial_quotients c m) 0) x y /\
  convergents c m = map (fun k => (x k, y k)) (seq 0 (length (partial_quotients c m))) /\
  forall k, x (S k) * y k - x k * y (S k) = if Nat.even k then 1 else -1.
Proof.
  set (q := fun k => nth k (partial_quotients c m) 0).
  set (cv := fix cv (k : nat) : Z * Z * Z * Z := match k with O => (0, 1, 1, 0) | S k => let '(a0, a1, b0, b1) := cv k in (a1, q k * a1 + a0, b1, q k * b1 + b0) end).
  set (x := fun k => snd (fst (fst (cv (S k))))). set (y := fun k => snd (cv (S k))).
  assert (Ecv : forall k, cv (S (S k)) = (x k, x (S k), y k, y (S k))) by (intros k; unfold x, y; cbn [cv]; destruct (cv k) as (((a0, a1), b0), b1); reflexivity).
  exists x, y. split; [|split].
  - constructor; [unfold x, y; cbn [cv fst snd]; lia|unfold x, y; cbn [cv fst snd]; lia|]. intros k. unfold x at 1, y at 1. remember (S (S k)) as n eqn:En. cbn [cv]. rewrite En at 1 3. rewrite Ecv. cbn [fst snd]. auto.
  - assert (G : forall n cur k, partial_quotients c m = firstn k (partial_quotients c m) ++ cycle_take (fundamental_period c) cur n -> (k <= length (partial_quotients c m))%nat ->
      conv_take (fundamental_period c) n (cur, cv k) = map (fun k => (x k, y k)) (seq k (length (cycle_take (fundamental_period c) cur n)))).
    { induction n as [|n IH]; intros cur k E Hk; [reflexivity|]. cbn [conv_take]. unfold conv_next. destruct (cv k) as (((a0, a1), b0), b1) eqn:Ek. cbn [cycle_take] in *. destruct (cycle_next (fundamental_period c) cur) as [(z, cur')|]; [|reflexivity].
      assert (Lk : length (firstn k (partial_quotients c m)) = k) by (apply firstn_length_le; exact Hk).
      assert (Ez : q k = z) by (unfold q; rewrite E, app_nth2; rewrite Lk; [rewrite Nat.sub_diag; reflexivity|lia]).
      assert (Ek1 : cv (S k) = (a1, z * a1 + a0, b1, z * b1 + b0)) by (cbn [cv]; rewrite Ek, Ez; reflexivity).
      cbn [length seq map]. f_equal; [unfold x, y; rewrite Ek1; reflexivity|]. rewrite <- Ek1. apply IH.
      - rewrite E at 1. assert (X : firstn (S k) (partial_quotients c m) = firstn k (partial_quotients c m) ++ [z]) by (rewrite E at 1; rewrite firstn_app, Lk; replace (S k - k)%nat with 1%nat by lia; rewrite firstn_all2 by (rewrite Lk; lia); reflexivity). rewrite X, <- app_assoc. reflexivity.
      - rewrite E, app_length, Lk. cbn [length]. lia. }
    unfold convergents, conv_start. change (0, 1, 1, 0) with (cv 0%nat). rewrite (G m (pre_period c) 0%nat); [reflexivity|reflexivity|lia].
  - assert (Dt : forall k, let '(a0, a1, b0, b1) := cv k in a1 * b0 - a0 * b1 = if Nat.even k then 1 else -1).
    { induction k as [|k IH]; [reflexivity|]. rewrite Nat.even_succ, <- Nat.negb_even. cbn [cv]. destruct (cv k) as (((a0, a1), b0), b1). replace ((q k * a1 + a0) * b1 - a1 * (q k * b1 + b0)) with (- (a1 * b0 - a0 * b1)) by ring. rewrite IH. destruct (Nat.even k); reflexivity. }
    intros k. specialize (Dt (S (S k))). rewrite Ecv in Dt. rewrite Nat.even_succ_succ in Dt. lia.
Qed.

(** QuadraticIrrational(d) for a nonsquare d: the constructor terminates, partial_quotients() yields the partial quotients of
    sqrt(d), and period_length and fundamental_period give the shortest period, which starts after the first quotient. *)
Theorem C27_square_root d fuel : 0 < d -> not_square d -> exact_range d -> 4 * d < 2 ^ Z.of_nat fuel ->
  exists c q L, QuadraticIrrational fuel d 0 1 = Ret c /\ cf_sqrt d q /\ (forall m, partial_quotients c m = map q (seq 0 m)) /\
    pre_period c = [q 0%nat] /\ period_length c = Z.of_nat L /\ (1 <= L)%nat /\ fundamental_period c = map q (seq 1 L) /\
    (forall k, (1 <= k)%nat -> q (k + L)%nat = q k) /\ forall M, (1 <= M)%nat -> (forall k, (1 <= k)%nat -> q (k + M)%nat = q k) -> (L <= M)%nat.
Proof.
  intros H N E Hf. pose proof (pos2 d H N) as H2. destruct (object_ok d fuel H2 N (exact_sqrt d ltac:(lia) E) Hf) as (L & L1 & L2 & L3 & L4 & EO). destruct (sqrt_range d H2 N) as (Hr & Hd).
  set (r := Z.sqrt d) in *. clearbody r. exists (qi d r L), (pq d r), L. split; [exact EO|]. split; [|split; [|repeat split; auto]].
  - split; [apply pq_pos; assumption|]. intros x y C. assert (AB : forall k, x k = A d r k /\ y k = B d r k /\ x (S k) = A d r (S k) /\ y (S k) = B d r (S k)).
    { destruct C as [(C1 & C2) (C3 & C4) C5]. induction k as [|k (I1 & I2 & I3 & I4)]; [rewrite A0, B0, A1, B1; cbn [pq] in *; rewrite C1, C2, C3, C4; auto|]. rewrite (A_rec d r), (B_rec d r). destruct (C5 k) as (-> & ->). rewrite I1, I2, I3, I4. auto. }
    intros k. destruct (AB k) as (-> & -> & _). pose proof (AB_pos d r Hr Hd k) as P. pose proof (B_grow d r Hr Hd k) as G. pose proof (norm d r Hr Hd k) as Nm. pose proof (Qn_pos d r Hr Hd (S k)) as Q. unfold sign in Nm.
    split; [lia|]. split; [lia|]. destruct (Nat.even k); lia.
  - intros m. apply partial_quotients_ok; assumption.
  - intros k Hk. destruct k as [|k]; [lia|]. unfold pq. cbn [Nat.add]. rewrite <- (Nat.add_succ_l k L). rewrite (Nat.add_comm (S k)). rewrite (sq_shift d r L 0 (S k)); [reflexivity|rewrite L3; reflexivity].
  - intros M HM Per. destruct (Nat.le_gt_cases L M) as [|Lt]; [assumption|exfalso]. apply (L4 (L - M)%nat ltac:(lia)). specialize (Per (L - M)%nat ltac:(lia)). replace (L - M + M)%nat with L in Per by lia.
    destruct (L - M)%nat as [|j] eqn:Ej; [lia|]. destruct L as [|l]; [lia|]. cbn [pq] in Per. apply quot_2r; auto. rewrite <- Per. apply quot_2r; auto.
Qed.

(** A perfect square is refused, a negative number too. *)
Theorem C27_square_root_error d fuel : d < 0 \/ (exists k, k * k = d) -> QuadraticIrrational fuel d 0 1 = Raise ValueError.
Proof.
  intros H. unfold QuadraticIrrational. cbn [Z.eqb Pos.eqb andb]. unfold initialize_sqrt. destruct H as [H|(k & <-)].
  - rewrite C04_integer_sqrt_error by exact H. reflexivity.
  - rewrite <- (Z.abs_square k). rewrite integer_sqrt_square by lia. cbn [bind]. rewrite Z.eqb_refl. reflexivity.
Qed.

(** Where integer_sqrt is off by one the expansion is not that of a continued fraction: for d = a^2 - 1 it is
    a, -2a, 2a, -2a, ... *)
Lemma float_terms a fuel : 1 <= a -> (2 <= fuel)%nat -> run (sqrt_step (a * a - 1) a) fuel (0, 1, []) = Ret [a; - (2 * a); 2 * a].
Proof.
  intros Ha Hf. set (d := a * a - 1).
  assert (S0 : sqrt_step d a (0, 1, []) = inl (a, -1, [a])).
  { unfold sqrt_step, pydiv. rewrite Z.add_0_l. change (1 =? 0) with false. rewrite Z.div_1_r. cbn [app]. destruct (Z.eqb_spec a (2 * a)); [lia|]. rewrite Z.mul_1_r, Z.sub_0_r, Z.div_1_r. repeat f_equal. unfold d. lia. }
  assert (S1 : sqrt_step d a (a, -1, [a]) = inl (a, 1, [a; - (2 * a)])).
  { unfold sqrt_step, pydiv. change (-1 =? 0) with false. assert (D : (a + a) / -1 = - (2 * a)) by (symmetry; apply Z.div_unique_exact; lia). rewrite D. cbn [app]. destruct (Z.eqb_spec (- (2 * a)) (2 * a)); [lia|].
    replace (- (2 * a) * -1 - a) with a by lia. assert (D2 : (d - a * a) / -1 = 1) by (symmetry; apply Z.div_unique_exact; unfold d; lia). rewrite D2. reflexivity. }
  assert (S2 : sqrt_step d a (a, 1, [a; - (2 * a)]) = inr (Ret [a; - (2 * a); 2 * a])).
  { unfold sqrt_step, pydiv. change (1 =? 0) with false. rewrite Z.div_1_r. replace (a + a) with (2 * a) by lia. rewrite Z.eqb_refl. reflexivity. }
  apply (run_rule (sqrt_step d a) (fun s => s = (0, 1, []) \/ s = (a, -1, [a]) \/ s = (a, 1, [a; - (2 * a)]))
    (fun s => 2 - Z.of_nat (length (snd s))) (fun r => r = Ret [a; - (2 * a); 2 * a])); [|auto|].
  - intros s [->|[->| ->]]; [rewrite S0|rewrite S1|rewrite S2; reflexivity]; (split; [auto|cbn; lia]).
  - cbn [snd length]. assert (2 ^ 2 <= 2 ^ Z.of_nat fuel) by (apply Z.pow_le_mono_r; lia). lia.
Qed.
Theorem C27_square_root_float_refuted a fuel : 2 ^ 26 < a <= 2 ^ 30 -> (2 <= fuel)%nat ->
  not_square (a * a - 1) /\ exists c, QuadraticIrrational fuel (a * a - 1) 0 1 = Ret c /\ partial_quotients c 3 = [a; - (2 * a); 2 * a] /\
    ~ exists q, cf_sqrt (a * a - 1) q /\ forall m, partial_quotients c m = map q (seq 0 m).
Proof.
  intros Ha Hf. split.
  - intros k E. pose proof (Z.abs_square k) as Ek. set (m := Z.abs k) in *. assert (0 <= m) by apply Z.abs_nonneg. assert (m <= a - 1 \/ a <= m) as [X|X] by lia; nia.
  - exists {| period_length := 2; pre_period := [a]; fundamental_period := [- (2 * a); 2 * a] |}. split; [|split; [reflexivity|]].
    + unfold QuadraticIrrational. cbn [andb Z.eqb]. unfold initialize_sqrt. rewrite (proj1 (C04_integer_sqrt_refuted a Ha)). cbn [bind]. destruct (Z.eqb_spec (a * a) (a * a - 1)); [lia|]. rewrite float_terms by (try lia; exact Hf). reflexivity.
    + intros (q & (Q & _) & E). specialize (E 2%nat). specialize (Q 1%nat). cbn [seq map] in E. cbn in E. injection E as E0 E1. destruct a; lia.
Qed.

(** pell_fundamental_solution: whatever it returns solves the equation ... *)
Theorem C27_fundamental_sound fuel D n x y : pell_fundamental_solution fuel D n = Ret (Some (x, y)) -> solution D n x y.
Proof. apply fundamental_sound. Qed.

(** ... and on the exact range it always terminates, with the least positive solution if there is one, and a ValueError
    otherwise.  For n = 1 there always is one. *)
Theorem C27_fundamental_solution fuel D n : 0 < D -> not_square D -> exact_range D -> 4 * D < 2 ^ Z.of_nat fuel -> n = 1 \/ n = -1 ->
  (exists x y, pell_fundamental_solution fuel D n = Ret (Some (x, y)) /\ least_positive D n x y) \/
  (n = -1 /\ pell_fundamental_solution fuel D n = Raise ValueError /\ forall x y, ~ solution D n x y).
Proof. intros H N E Hf Hn. pose proof (pos2 D H N). apply fundamental_ok; auto. apply exact_sqrt; [lia|exact E]. Qed.

(** Every nonsquare D > 0 has a positive solution of x^2 - D y^2 = 1 (whatever the size of D). *)
Theorem C27_pell_solvable D : 0 < D -> not_square D -> exists x y, least_positive D 1 x y.
Proof.
  intros H N. pose proof (pos2 D H N) as H2. destruct (sqrt_range D H2 N) as (Hr & Hd). destruct (sq_period D _ Hr Hd) as (L & L1 & L2 & L3 & L4).
  destruct (unit_exists D _ Hr Hd L L1 L3 L4 1 (or_introl eq_refl)) as (K & HK & EK). destruct (first_norm D _ 1 K EK) as (k & Hk & Ek & Min).
  exists (A D (Z.sqrt D) k), (B D (Z.sqrt D) k). pose proof (AB_pos D _ Hr Hd k) as (P1 & P2 & _). split; [exact P1|]. split; [exact P2|]. split; [exact Ek|]. intros x' y' X Y S.
  destruct (unit_is_convergent D _ Hr Hd x' y' 1 X Y (or_introl eq_refl) S) as (j & -> & ->). apply A_mono; auto. destruct (Nat.le_gt_cases k j); [assumption|exfalso; apply (Min j); assumption].
Qed.

(** Invalid arguments. *)
Theorem C27_fundamental_error fuel D n : D <= 0 \/ (exists k, k * k = D) \/ (n <> 1 /\ n <> -1) -> pell_fundamental_solution fuel D n = Raise ValueError.
Proof. apply fundamental_bad. Qed.

(** PellEquation accepts the same D, and its method resolvent_solution always fails. *)
Theorem C27_pell_equation D N : (PellEquation D N = Ret (D, N) <-> 0 < D /\ not_square D) /\ (PellEquation D N = Ret (D, N) \/ PellEquation D N = Raise ValueError).
Proof.
  unfold PellEquation. destruct (Z.leb_spec D 0) as [L|L]; cbn [bind]; [split; [split; [discriminate|lia]|auto]|]. destruct (Classify_Proofs2.is_square_ok D) as [(r & Hr & E & ->)|(NS & ->)]; cbn [bind truthy].
  - destruct (Z.eqb_spec r 0); [nia|]. cbn [negb]. split; [split; [discriminate|intros (_ & X); exfalso; apply (X r E)]|auto].
  - split; [split; [auto|reflexivity]|auto].
Qed.
Theorem C27_resolvent_solution_refuted : forall D N, 0 < D -> not_square D -> exists eqn, PellEquation D N = Ret eqn /\ resolvent_solution eqn = Raise NameError.
Proof. intros D N H NS. exists (D, N). split; [apply C27_pell_equation; auto|reflexivity]. Qed.

(** pell_small yields only solutions; for N = 1 and N = -1 it yields all of them. *)
Theorem C27_pell_small_sound fuel D N m l : pell_small fuel D N m = Ret l -> forall x y, In (x, y) l -> solution D N x y.
Proof. apply pell_small_sound. Qed.
Theorem C27_pell_small_units fuel D N : 0 < D -> not_square D -> exact_range D -> 4 * D < 2 ^ Z.of_nat fuel -> N = 1 \/ N = -1 ->
  forall x y, 1 <= x -> 1 <= y -> solution D N x y -> exists m0, forall m, (m0 <= m)%nat -> exists l, pell_small fuel D N m = Ret l /\ In (x, y) l.
Proof.
  intros H NS E Hf HN x y Hx Hy S. pose proof (pos2 D H NS) as H2. destruct (sqrt_range D H2 NS) as (Hr & Hd). destruct (unit_is_convergent D _ Hr Hd x y N Hx Hy HN S) as (k & Ex & Ey). exists (Datatypes.S k). intros m Hm.
  destruct (pell_small_ok fuel D N m H2 NS (exact_sqrt D ltac:(lia) E) Hf HN) as (l & El & Hl). exists l. split; [exact El|]. apply Hl. exists k. repeat split; auto; lia.
Qed.
Theorem C27_pell_small_minimal_sound fuel D N l : pell_small_minimal_positive_solutions fuel D N = Ret l -> forall x y, In (x, y) l -> solution D N x y.
Proof. apply companion_sound. Qed.

(** The lists of minimal solutions are sorted as Python sorts pairs, whatever the square roots and the bound are. *)
Definition lexicographic (a b : Z * Z) : Prop := fst a < fst b \/ fst a = fst b /\ snd a <= snd b.
Lemma pair_sort_sorted l : StronglySorted lexicographic (pair_sort l).
Proof.
  induction l as [|x l IH]; [constructor|]. unfold pair_sort in *. cbn [fold_right]. revert IH. generalize (fold_right pair_insert [] l). clear l.
  induction l as [|y l IHl]; intros S; cbn [pair_insert]; [repeat constructor|]. apply StronglySorted_inv in S as (S & F).
  destruct (pair_le x y) eqn:E; unfold pair_le in E.
  - apply orb_true_iff in E. rewrite andb_true_iff, Z.ltb_lt, Z.eqb_eq, Z.leb_le in E. constructor; [constructor; assumption|]. constructor; [exact E|].
    revert F. apply Forall_impl. intros z Hz. unfold lexicographic in *. lia.
  - apply orb_false_iff in E as (E1 & E2). rewrite andb_false_iff, Z.eqb_neq, Z.leb_gt in E2. apply Z.ltb_ge in E1. constructor; [apply IHl, S|].
    apply Forall_forall. intros z Hz. apply (Permutation.Permutation_in _ (pair_insert_perm x l)) in Hz as [<-|Hz]; [unfold lexicographic; lia|]. rewrite Forall_forall in F. apply F, Hz.
Qed.
Theorem C27_minimal_sorted sqrts bound fuel D N l : pell_small_minimal_positive_solutions fuel D N = Ret l \/ pell_minimal_positive_solutions sqrts bound fuel D N = Ret l ->
  StronglySorted lexicographic l.
Proof.
  intros [E|E].
  - unfold pell_small_minimal_positive_solutions in E. destruct (small_start fuel D N); cbn [bind] in E; try discriminate. destruct (run _ fuel _); cbn [bind] in E; try discriminate.
    destruct (foldM _ _ []); cbn [bind] in E; try discriminate. injection E as <-. apply pair_sort_sorted.
  - unfold pell_minimal_positive_solutions in E. destruct (pell_fundamental_solution fuel D 1) as [[(u, v)|]| |]; cbn [bind] in E; try discriminate. destruct (N =? 1); [injection E as <-; repeat constructor|].
    destruct (sqrts N D); cbn [bind] in E; try discriminate. destruct (mapM _ _); cbn [bind] in E; try discriminate. injection E as <-. apply pair_sort_sorted.
Qed.
Print Assumptions C27_minimal_sorted.

(** pell_minimal_positive_solutions and pell_solution_generator yield only solutions, whatever the floating-point bound is. *)
Theorem C27_minimal_sound sqrts bound fuel D N l : (forall rs, sqrts N D = Ret rs -> square_roots N D rs) ->
  pell_minimal_positive_solutions sqrts bound fuel D N = Ret l -> forall x y, In (x, y) l -> solution D N x y.
Proof. intros Hs. apply minimal_sound. intros rs x E Hx. apply (Hs rs E) in Hx. apply Hx. Qed.
Theorem C27_generator_sound sqrts bound fuel D N B l : (forall rs, sqrts N D = Ret rs -> square_roots N D rs) ->
  pell_solution_generator sqrts bound fuel D N B = Ret l -> forall x y, In (x, y) l -> solution D N x y.
Proof. intros Hs. apply generator_sound. intros rs x E Hx. apply (Hs rs E) in Hx. apply Hx. Qed.

Lemma unit_power_eq D u v xy k : unit_power D u v xy k = power D xy (u, v) k.
Proof. induction k as [|k IH]; [reflexivity|]. cbn [unit_power power]. rewrite IH. destruct (power D xy (u, v) k) as (x, y). unfold times. cbn [fst snd]. f_equal. ring. Qed.

Lemma minimal_full sqrts bound fuel D N u v rs : 0 < D -> not_square D -> exact_range D -> 4 * D < 2 ^ Z.of_nat fuel -> N <> 0 -> (N = 1 \/ not_square N) ->
  least_positive D 1 u v -> exact_bound u N (bound u N) -> sqrts N D = Ret rs -> square_roots N D rs ->
  exists l, pell_minimal_positive_solutions sqrts bound fuel D N = Ret l /\ (forall p q, In (p, q) l -> 0 <= p /\ 1 <= q /\ solution D N p q) /\
    forall x y, 0 <= x -> 1 <= y -> (solution D N x y <-> exists p q k, In (p, q) l /\ (x, y) = power D (p, q) (u, v) k).
Proof.
  intros H NS E Hf HN NN LS HB Es Hrs. pose proof (pos2 D H NS) as H2. unfold pell_minimal_positive_solutions.
  destruct (C27_fundamental_solution fuel D 1 H NS E Hf (or_introl eq_refl)) as [(u' & v' & -> & LS')|(X & _)]; [|discriminate].
  assert (u' = u /\ v' = v) as (-> & ->) by (destruct LS as (A1 & A2 & A3 & A4), LS' as (B1 & B2 & B3 & B4); destruct (A4 u' v' B1 B2 B3), (B4 u v A1 A2 A3); lia). cbn [bind].
  assert (Back : forall l, (forall p q, In (p, q) l -> 0 <= p /\ 1 <= q /\ solution D N p q) -> forall x y, (exists p q k, In (p, q) l /\ (x, y) = power D (p, q) (u, v) k) -> solution D N x y).
  { intros l Hl x y (p & q & k & Hin & Ek). assert (S : sols D N (fst (p, q)) (snd (p, q))) by apply Hl, Hin. apply (power_sols D N (p, q) (u, v) k) in S; [|apply LS]. rewrite <- Ek in S. exact S. }
  destruct (Z.eqb_spec N 1) as [-> |N1].
  - assert (Hl : forall p q, In (p, q) [(u, v)] -> 0 <= p /\ 1 <= q /\ solution D 1 p q) by (intros p q [X|[]]; injection X as <- <-; destruct LS as (A1 & A2 & A3 & A4); repeat split; auto; lia).
    eexists. split; [reflexivity|]. split; [exact Hl|]. intros x y Hx Hy. split; [|apply Back, Hl]. intros S. destruct (units_complete D u v x y H2 LS Hx Hy S) as (k & Ek). exists u, v, k. split; [left; reflexivity|exact Ek].
  - destruct NN as [NN|NN]; [contradiction|]. rewrite Es. cbn [bind]. destruct (found_ok D N H2 HN (bound u N) rs Hrs) as (found & Ef & _). rewrite Ef. cbn [bind].
    unfold exact_bound in HB.
    destruct (minimal_complete D N u v H2 NS HN NN LS (bound u N)) with (rs := rs) (found := found) as (Hl & Hc); auto.
    { intros P. destruct (Z.ltb_spec 0 N); [exact HB|lia]. } { intros P. destruct (Z.ltb_spec 0 N); [lia|exact HB]. }
    eexists. split; [reflexivity|]. split; [exact Hl|]. intros x y Hx Hy. split; [apply Hc; assumption|apply Back, Hl].
Qed.

(** With the exact bound, and N = 1 or N not a square, every solution is obtained from exactly the listed ones by multiplying
    with powers of the fundamental unit. *)
Theorem C27_minimal_complete sqrts bound fuel D N u v rs : 0 < D -> not_square D -> exact_range D -> 4 * D < 2 ^ Z.of_nat fuel -> N <> 0 -> (N = 1 \/ not_square N) ->
  least_positive D 1 u v -> exact_bound u N (bound u N) -> sqrts N D = Ret rs -> square_roots N D rs ->
  exists l, pell_minimal_positive_solutions sqrts bound fuel D N = Ret l /\ (forall p q, In (p, q) l -> 0 <= p /\ 1 <= q /\ solution D N p q) /\
    forall x y, 0 <= x -> 1 <= y -> (solution D N x y <-> exists p q k, In (p, q) l /\ (x, y) = unit_power D u v (p, q) k).
Proof.
  intros. destruct (minimal_full sqrts bound fuel D N u v rs) as (l & E & H1' & H2'); auto. exists l. split; [exact E|]. split; [exact H1'|]. intros x y Hx Hy. rewrite (H2' x y Hx Hy).
  split; intros (p & q & k & Hin & Ek); exists p, q, k; (split; [exact Hin|]); [rewrite unit_power_eq|rewrite <- unit_power_eq]; exact Ek.
Qed.

(** The generator then yields exactly the solutions with 0 <= x <= B and 1 <= y <= B. *)
Theorem C27_generator_complete sqrts bound fuel D N B u v rs : 0 < D -> not_square D -> exact_range D -> 4 * D < 2 ^ Z.of_nat fuel -> B + 1 < 2 ^ Z.of_nat fuel -> N <> 0 -> (N = 1 \/ not_square N) ->
  least_positive D 1 u v -> exact_bound u N (bound u N) -> sqrts N D = Ret rs -> square_roots N D rs ->
  exists l, pell_solution_generator sqrts bound fuel D N B = Ret l /\ forall x y, In (x, y) l <-> 0 <= x <= B /\ 1 <= y <= B /\ solution D N x y.
Proof.
  intros H NS E Hf HB HN NN LS Bd Es Hrs. pose proof (pos2 D H NS) as H2. destruct (minimal_full sqrts bound fuel D N u v rs) as (m & Em & H1' & H2'); auto.
  unfold pell_solution_generator. destruct (C27_fundamental_solution fuel D 1 H NS E Hf (or_introl eq_refl)) as [(u' & v' & -> & LS')|(X & _)]; [|discriminate].
  assert (u' = u /\ v' = v) as (-> & ->) by (destruct LS as (A1 & A2 & A3 & A4), LS' as (B1 & B2 & B3 & B4); destruct (A4 u' v' B1 B2 B3), (B4 u v A1 A2 A3); lia). cbn [bind]. rewrite Em. cbn [bind].
  destruct LS as (A1 & A2 & A3 & _). pose proof (u2 D u v H2 A1 A2 A3) as U2.
  destruct (mapM_total (fun '(x, y) => run (family_step D B u v) fuel (x, y, [])) (fun a l => forall x y, In (x, y) l <-> x <= B /\ y <= B /\ exists k, (x, y) = power D a (u, v) k) m) as (fs & Ef & F).
  { intros (p, q) Hin. destruct (H1' p q Hin) as (P1 & P2 & _). apply (family_ok D u v B p q H2 U2 A2 P1 P2 fuel HB). }
  rewrite Ef. cbn [bind]. eexists. split; [reflexivity|]. intros x y. split.
  - intros Hin. destruct (Forall2_concat_In _ _ _ _ F Hin) as ((p, q) & z & I1 & I2 & I3). cbv beta in I2. apply I2 in I3 as (I3 & I4 & k & Ek). destruct (H1' p q I1) as (P1 & P2 & _).
    destruct (power_pos D u v B p q H2 U2 A2 P1 P2 k) as (Q1 & Q2). rewrite <- Ek in Q1, Q2. cbn [fst snd] in Q1, Q2. split; [lia|]. split; [lia|]. apply H2'; [lia|lia|]. exists p, q, k. auto.
  - intros (Hx & Hy & S). apply H2' in S as (p & q & k & I1 & Ek); [|lia|lia]. destruct (Forall2_In_concat _ _ _ (p, q) F I1) as (z & Hz & Hi). apply Hi. apply Hz. split; [lia|]. split; [lia|]. exists k. exact Ek.
Qed.

(** The library's own sqrts_mod_n meets the hypotheses on [sqrts] (C13). *)
Theorem C27_sqrts_hypothesis fact draw fuel D N : 2 <= D -> fac_arg fact D None -> lucky_for draw fuel D ->
  exists rs, sqrts_mod_n fact draw fuel N D None = Ret rs /\ square_roots N D rs.
Proof. intros HD Hf Lk. destruct (C13_sqrts_mod_n fact draw fuel N D None HD Hf Lk) as (l & E & _ & Hl). exists l. split; [exact E|exact Hl]. Qed.

(** For a square N > 1 the class of (sqrt N, 0) is lost. *)
Theorem C27_minimal_square_refuted : exists sqrts bound fuel D N u v rs, 0 < D /\ not_square D /\ exact_range D /\ 4 * D < 2 ^ Z.of_nat fuel /\ least_positive D 1 u v /\
  exact_bound u N (bound u N) /\ sqrts N D = Ret rs /\ square_roots N D rs /\ pell_minimal_positive_solutions sqrts bound fuel D N = Ret [] /\ solution D N 6 4.
Proof.
  exists (fun _ _ => Ret [0]), (fun _ _ => 3), 4%nat, 2, 4, 3, 2, [0].
  assert (NS : not_square 2) by (intros k E; assert (Z.abs k <= 1 \/ 2 <= Z.abs k) as [X|X] by lia; rewrite <- Z.abs_square in E; [assert (Z.abs k * Z.abs k <= 1 * 1) by (apply Z.mul_le_mono_nonneg; lia); lia|assert (2 * 2 <= Z.abs k * Z.abs k) by (apply Z.mul_le_mono_nonneg; lia); lia]). split; [lia|]. split; [exact NS|]. split; [left; lia|]. split; [reflexivity|]. split.
  { destruct (C27_fundamental_solution 4 2 1 ltac:(lia) NS ltac:(left; lia) ltac:(reflexivity) (or_introl eq_refl)) as [(x & y & E & LS)|(X & _)]; [|discriminate]. vm_compute in E. injection E as <- <-. exact LS. }
  split; [intros x Hx; change (0 <? 4) with true; cbv iota beta; nia|]. split; [reflexivity|]. split; [|split; [vm_compute; reflexivity|reflexivity]].
  intros x. cbn [In]. split; [intros [<-|[]]; split; [lia|exists (-2); reflexivity]|]. intros (Hx & c & Ec). left. assert (x = 0 \/ x = 1) as [-> | ->] by lia; [reflexivity|lia].
Qed.

(** farey returns only solutions; for N = 1 and N = -1 it finds the least one, and it never returns if there is none. *)
Theorem C27_farey_sound fuel D N a b : farey fuel D N = Ret (a, b) -> solution D N a b.
Proof. apply farey_sound. Qed.
Theorem C27_farey_least D N x y fuel : 0 < D -> not_square D -> N = 1 \/ N = -1 -> least_positive D N x y -> x + y < 2 ^ Z.of_nat fuel -> farey fuel D N = Ret (x, y).
Proof. intros H NS HN LS Hf. apply farey_ok; auto. apply pos2; assumption. Qed.
Theorem C27_farey_diverges D N fuel : (forall x y, 1 <= x -> 1 <= y -> ~ solution D N x y) -> farey fuel D N = Diverge.
Proof.
  intros NoS. unfold farey. apply (run_never (farey_step D N) (fun s => let '(n1, d1, n2, d2) := s in 0 <= n1 /\ 1 <= d1 /\ 1 <= n2 /\ 0 <= d2)); [|lia].
  intros (((n1, d1), n2), d2) (H1 & H2 & H3 & H4). unfold farey_step. destruct (Z.eqb_spec N ((n1 + n2) * (n1 + n2) - D * (d1 + d2) * (d1 + d2))) as [E|E]; [exfalso; apply (NoS (n1 + n2) (d1 + d2)); [lia|lia|symmetry; exact E]|].
  destruct (0 <? _); eexists; (split; [reflexivity|]); cbv beta iota; lia.
Qed.

Print Assumptions C27_convergents.
Print Assumptions C27_square_root.
Print Assumptions C27_square_root_error.
Print Assumptions C27_square_root_float_refuted.
Print Assumptions C27_fundamental_sound.
Print Assumptions C27_fundamental_solution.
Print Assumptions C27_pell_solvable.
Print Assumptions C27_fundamental_error.
Print Assumptions C27_pell_equation.
Print Assumptions C27_resolvent_solution_refuted.
Print Assumptions C27_pell_small_sound.
Print Assumptions C27_pell_small_units.
Print Assumptions C27_pell_small_minimal_sound.
Print Assumptions C27_minimal_sound.
Print Assumptions C27_generator_sound.
Print Assumptions C27_minimal_complete.
Print Assumptions C27_generator_complete.
Print Assumptions C27_sqrts_hypothesis.
Print Assumptions C27_minimal_square_refuted.
Print Assumptions C27_farey_sound.
Print Assumptions C27_farey_least.
Print Assumptions C27_farey_diverges.

Example C27_ex : QuadraticIrrational 6 14 0 1 = Ret {| period_length := 4; pre_period := [3]; fundamental_period := [1; 2; 1; 6] |} /\
  pell_fundamental_solution 8 61 1 = Ret (Some (1766319049, 226153980)) /\ pell_fundamental_solution 8 13 (-1) = Ret (Some (18, 5)) /\ pell_fundamental_solution 8 7 (-1) = Raise ValueError /\
  pell_small 6 7 1 12 = Ret [(8, 3); (127, 48); (2024, 765)] /\ farey 12 13 (-1) = Ret (18, 5).
Proof. vm_compute. repeat split; reflexivity. Qed.
(** x^2 - 7 y^2 = 2 and the squares of 2 modulo 7; the bound is sqrt(9 * 2 / 2) + 1 = 4. *)
Example C27_generator_ex : pell_solution_generator (fun _ _ => Ret [3; 4]) (fun _ _ => 4) 12 7 2 1000 = Ret [(3, 1); (45, 17); (717, 271)] /\
  pell_minimal_positive_solutions (fun _ _ => Ret [1; 2]) (fun _ _ => 2) 12 3 (-2) = Ret [(1, 1)].
Proof. vm_compute. repeat split; reflexivity. Qed.
