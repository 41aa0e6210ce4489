(** * Fundamental solutions; classes of solutions of x^2 - D y^2 = N *)
From Coq Require Import ZArith List Bool Lia.
From Verif Require Import Base Py Loop Core_Model Core_Spec Classify_Model Classify_Proofs Classify_Proofs2 Pell_Model Pell_Proofs Pell_Proofs2 Pell_Proofs3.
Import ListNotations.
Open Scope Z_scope.

Definition nonsquare (d : Z) : Prop := forall k, k * k <> d.
Definition sols (D N x y : Z) : Prop := x * x - D * y * y = N.

Lemma sqrt_range d : 2 <= d -> nonsquare d -> 1 <= Z.sqrt d /\ Z.sqrt d * Z.sqrt d < d < (Z.sqrt d + 1) * (Z.sqrt d + 1).
Proof.
  intros H N. pose proof (Z.sqrt_spec d ltac:(lia)) as S. specialize (N (Z.sqrt d)). assert (1 <= Z.sqrt d) by (apply (Z.sqrt_le_mono 1 d); lia). cbv zeta in S. unfold Z.succ in S. lia.
Qed.

Lemma is_square_bad D : 1 <= D -> nonsquare D -> is_square D = Ret None.
Proof. intros H N. destruct (is_square_ok D) as [(r & _ & E & _)|(_ & E)]; [exfalso; apply (N r E)|exact E]. Qed.

(** What the object built for sqrt d is. *)
Lemma object_ok d fuel : 2 <= d -> nonsquare d -> integer_sqrt d = Ret (Z.sqrt d) -> 4 * d < 2 ^ Z.of_nat fuel ->
  exists L, (1 <= L)%nat /\ Z.of_nat L < 2 * d /\ sq d (Z.sqrt d) L = (Z.sqrt d, 1) /\ (forall k, (1 <= k < L)%nat -> sq d (Z.sqrt d) k <> (Z.sqrt d, 1)) /\
    QuadraticIrrational fuel d 0 1 = Ret (qi d (Z.sqrt d) L).
Proof.
  intros H N E Hf. destruct (sqrt_range d H N) as (Hr & Hd). destruct (sq_period d _ Hr Hd) as (L & L1 & L2 & L3 & L4). exists L. assert (Z.of_nat L < 2 * d) by nia.
  repeat split; auto. apply initialize_ok; auto. lia.
Qed.

Lemma fundamental_sound fuel D n x y : pell_fundamental_solution fuel D n = Ret (Some (x, y)) -> sols D n x y.
Proof.
  unfold pell_fundamental_solution. destruct (D <=? 0); cbn [bind]; [discriminate|]. destruct (is_square D) as [o|e|]; cbn [bind]; try discriminate. destruct (truthy o || _); [discriminate|].
  destruct (QuadraticIrrational fuel D 0 1) as [c|e|]; cbn [bind]; try discriminate. destruct ((n =? -1) && _); [discriminate|]. intros E.
  pose proof (run_partial (pell_step D n (fundamental_period c)) (fun _ => True) (fun o => forall x y, o = Ret (Some (x, y)) -> sols D n x y)) as R.
  destruct (R ltac:(intros s _; unfold pell_step; destruct (conv_next (fundamental_period c) s) as [((a, b), s')|]; [destruct (Z.eqb_spec (a * a - D * b * b) n); [intros x' y' X; injection X as <- <-; assumption|exact I]|discriminate]) fuel (conv_start c) I) as [X|X]; [congruence|apply X, E].
Qed.

Lemma fundamental_bad fuel D n : D <= 0 \/ (exists k, k * k = D) \/ (n <> 1 /\ n <> -1) -> pell_fundamental_solution fuel D n = Raise ValueError.
Proof.
  intros H. unfold pell_fundamental_solution. destruct (Z.leb_spec D 0) as [L|L]; [reflexivity|]. destruct (is_square_ok D) as [(r & Hr & E & ->)|(N & ->)]; cbn [bind truthy].
  - destruct (Z.eqb_spec r 0); [nia|]. reflexivity.
  - destruct H as [H|[(k & H)|(H1 & H2)]]; [lia|exfalso; apply (N k H)|]. destruct (Z.eqb_spec n 1); [lia|]. destruct (Z.eqb_spec n (-1)); [lia|]. reflexivity.
Qed.

Definition least_solution (D n x y : Z) : Prop :=
  1 <= x /\ 1 <= y /\ sols D n x y /\ forall x' y', 1 <= x' -> 1 <= y' -> sols D n x' y' -> x <= x' /\ y <= y'.

Lemma fundamental_ok fuel D n : 2 <= D -> nonsquare D -> integer_sqrt D = Ret (Z.sqrt D) -> 4 * D < 2 ^ Z.of_nat fuel -> n = 1 \/ n = -1 ->
  (exists x y, pell_fundamental_solution fuel D n = Ret (Some (x, y)) /\ least_solution D n x y) \/
  (n = -1 /\ pell_fundamental_solution fuel D n = Raise ValueError /\ forall x y, ~ sols D n x y).
Proof.
  intros H N E Hf Hn. destruct (object_ok D fuel H N E Hf) as (L & L1 & L2 & L3 & L4 & EO). destruct (sqrt_range D H N) as (Hr & Hd). set (r := Z.sqrt D) in *. clearbody r.
  unfold pell_fundamental_solution. destruct (Z.leb_spec D 0); [lia|]. rewrite (is_square_bad D ltac:(lia) N). cbn [bind truthy orb].
  assert (En : negb ((n =? 1) || (n =? -1)) = false) by (destruct Hn as [-> | ->]; reflexivity). rewrite En, EO. cbn [bind].
  assert (Go : n = 1 \/ (n = -1 /\ Nat.odd L = true) -> exists x y, run (pell_step D n (fundamental_period (qi D r L))) fuel (conv_start (qi D r L)) = Ret (Some (x, y)) /\ least_solution D n x y).
  { intros Hn'. destruct (unit_exists D r Hr Hd L L1 L3 L4 n Hn') as (K & HK & EK). destruct (first_norm D r n K EK) as (k & Hk & Ek & Min).
    exists (A D r k), (B D r k). split; [apply (search_ok D r Hr Hd L L1 L3 L4); auto; lia|]. pose proof (AB_pos D r Hr Hd k) as (P1 & P2 & _). repeat split; auto; intros.
    all: destruct (unit_is_convergent D r Hr Hd x' y' n ltac:(lia) ltac:(lia) Hn ltac:(assumption)) as (j & -> & ->); apply A_mono; auto; destruct (Nat.le_gt_cases k j); [assumption|exfalso; apply (Min j); [assumption|unfold sols in *; assumption]]. }
  destruct ((n =? -1) && (period_length (qi D r L) mod 2 =? 0)) eqn:Ec.
  - right. apply andb_true_iff in Ec as (E1 & E2). apply Z.eqb_eq in E1. apply Z.eqb_eq in E2. cbn [qi period_length] in E2. split; [exact E1|]. split; [reflexivity|].
    assert (Ev : Nat.even L = true) by (apply Nat.even_spec; exists (Z.to_nat (Z.of_nat L / 2)); pose proof (Z.div_mod (Z.of_nat L) 2 ltac:(lia)); lia).
    assert (W : forall x y, 1 <= y -> ~ sols D n x y) by (intros x y Hy S; rewrite E1 in S; apply (no_unit D r Hr Hd L L1 L3 L4 x y Ev Hy S)).
    intros x y S. destruct (Z.lt_trichotomy y 0) as [Hy|[-> |Hy]]; [apply (W x (- y)); [lia|unfold sols in *; lia]|unfold sols in S; nia|apply (W x y); [lia|exact S]].
  - left. apply Go. destruct Hn as [-> | ->]; [left; reflexivity|right; split; [reflexivity|]]. cbn [Z.eqb Pos.eqb andb qi period_length] in Ec.
    rewrite <- Nat.negb_even. destruct (Nat.even L) eqn:Ev; [|reflexivity]. exfalso. apply Nat.even_spec in Ev as (m & Em). rewrite Em in Ec. rewrite Nat2Z.inj_mul, Z.mul_comm, Z.mod_mul in Ec by lia. discriminate.
Qed.

(** ** Multiplication by a unit *)
Definition times (D : Z) (a b : Z * Z) : Z * Z := (fst a * fst b + snd a * snd b * D, fst a * snd b + snd a * fst b).
Fixpoint power (D : Z) (a e : Z * Z) (k : nat) : Z * Z := match k with O => a | S k => times D (power D a e k) e end.

Lemma times_assoc D a b c : times D (times D a b) c = times D a (times D b c).
Proof. unfold times. destruct a, b, c. cbn [fst snd]. f_equal; ring. Qed.
Lemma times_comm D a b : times D a b = times D b a.
Proof. unfold times. destruct a, b. cbn [fst snd]. f_equal; ring. Qed.
Lemma power_times D a b e k : power D (times D a b) e k = times D (power D a e k) b.
Proof. induction k as [|k IH]; [reflexivity|]. cbn [power]. rewrite IH, times_assoc, (times_comm D b e), <- times_assoc. reflexivity. Qed.
Lemma power_S D a e k : power D a e (S k) = power D (times D a e) e k.
Proof. rewrite power_times. reflexivity. Qed.

Lemma times_sols D N a e : sols D 1 (fst e) (snd e) -> sols D N (fst a) (snd a) -> sols D N (fst (times D a e)) (snd (times D a e)).
Proof.
  unfold sols, times. destruct a as (x, y), e as (u, v). cbn [fst snd]. intros E1 E2.
  replace ((x * u + y * v * D) * (x * u + y * v * D) - D * (x * v + y * u) * (x * v + y * u)) with ((x * x - D * y * y) * (u * u - D * v * v)) by ring. rewrite E1, E2. ring.
Qed.
Lemma power_sols D N a e k : sols D 1 (fst e) (snd e) -> sols D N (fst a) (snd a) -> sols D N (fst (power D a e k)) (snd (power D a e k)).
Proof. intros He Ha. induction k as [|k IH]; [exact Ha|]. cbn [power]. apply times_sols; assumption. Qed.

Section classes.
  Context (D u v : Z).
  Hypothesis (HD : 2 <= D) (Hu : 1 <= u) (Hv : 1 <= v) (Huv : sols D 1 u v).
  Local Notation e := (u, v).

  Lemma u2 : 2 <= u.
  Proof using All. unfold sols in Huv. nia. Qed.

  Definition back (x y : Z) : Z * Z := (x * u - D * y * v, y * u - x * v).
  Lemma back_times x y : times D (back x y) e = (x, y).
  Proof using Huv.
    unfold back, times. cbn [fst snd]. unfold sols in Huv. f_equal.
    - transitivity (x * (u * u - D * v * v)); [ring|rewrite Huv; ring].
    - transitivity (y * (u * u - D * v * v)); [ring|rewrite Huv; ring].
  Qed.
  Lemma back_sols N x y : sols D N x y -> sols D N (fst (back x y)) (snd (back x y)).
  Proof using Huv.
    unfold sols, back. cbn [fst snd]. unfold sols in Huv. intros E. replace ((x * u - D * y * v) * (x * u - D * y * v) - D * (y * u - x * v) * (y * u - x * v)) with ((x * x - D * y * y) * (u * u - D * v * v)) by ring. rewrite E, Huv. ring.
  Qed.

  (** The quadratic relation between the x of a solution and of the previous one. *)
  Lemma back_rel N x y : sols D N x y -> let x' := fst (back x y) in x * x - 2 * u * x * x' + x' * x' = - (u * u - 1) * N.
  Proof using Huv.
    unfold sols, back. cbn [fst]. unfold sols in Huv. intros E. assert (Dv : D * v * v = u * u - 1) by lia. rewrite <- E.
    replace (x * x - 2 * u * x * (x * u - D * y * v) + (x * u - D * y * v) * (x * u - D * y * v)) with (x * x - u * u * (x * x) + D * y * y * (D * v * v)) by ring. rewrite Dv. ring.
  Qed.

  Lemma pos_x N x y : 0 < N -> sols D N x y -> 0 < x -> 0 < fst (back x y).
  Proof using All.
    unfold sols, back. cbn [fst]. unfold sols in Huv. intros HN E Hx.
    assert (X : (x * u) * (x * u) - (D * y * v) * (D * y * v) = x * x + D * v * v * N) by (replace ((x * u) * (x * u) - (D * y * v) * (D * y * v)) with (x * x * (u * u - D * v * v) + D * v * v * (x * x - D * y * y)) by ring; rewrite Huv, E; ring).
    assert (0 < x * u) by (apply Z.mul_pos_pos; lia). assert (0 < x * x) by (apply Z.mul_pos_pos; lia). assert (0 < D * v * v * N) by (repeat apply Z.mul_pos_pos; lia).
    set (a := x * u) in *. set (b := D * y * v) in *. clearbody a b. clear - X H H0 H1. nia.
  Qed.
  Lemma pos_y N x y : N < 0 -> sols D N x y -> 0 < y -> 0 < snd (back x y).
  Proof using All.
    unfold sols, back. cbn [snd]. unfold sols in Huv. intros HN E Hy.
    assert (X : (y * u) * (y * u) - (x * v) * (x * v) = y * y + v * v * (- N)) by (replace ((y * u) * (y * u) - (x * v) * (x * v)) with (y * y * (u * u - D * v * v) - v * v * (x * x - D * y * y)) by ring; rewrite Huv, E; ring).
    assert (0 < y * u) by (apply Z.mul_pos_pos; lia). assert (0 < y * y) by (apply Z.mul_pos_pos; lia). assert (0 < v * v * (- N)) by (repeat apply Z.mul_pos_pos; lia).
    set (a := y * u) in *. set (b := x * v) in *. clearbody a b. clear - X H H0 H1. nia.
  Qed.

  (** Two consecutive large solutions have the same sign. *)
  Lemma bound_pos N x x' : 0 < N -> 0 < x -> 0 < x' -> x <= u * x' -> x' <= u * x -> x * x - 2 * u * x * x' + x' * x' = - (u * u - 1) * N ->
    (u + 1) * N < 2 * (x * x) -> 2 * (x' * x') <= (u + 1) * N.
  Proof using All.
    intros HN Hx Hx' L1 L2 R Big. pose proof u2 as U. destruct (Z_le_gt_dec (2 * (x' * x')) ((u + 1) * N)) as [L|G]; [exact L|exfalso].
    assert (W : forall a b, 0 < a -> a <= b -> b <= u * a -> a * a - 2 * u * a * b + b * b = - (u * u - 1) * N -> (u + 1) * N < 2 * (a * a) -> False).
    { clear - U HN. intros a b Ha Hab Hb R Big. assert (X : 0 <= (b - a) * ((2 * u - 1) * a - b)) by (apply Z.mul_nonneg_nonneg; [lia|nia]).
      assert (Y : (u - 1) * ((u + 1) * N) < (u - 1) * (2 * (a * a))) by (apply Z.mul_lt_mono_pos_l; lia).
      assert ((u - 1) * ((u + 1) * N) = 2 * u * a * b - a * a - b * b) by lia. lia. }
    destruct (Z_le_gt_dec x x') as [L|L]; [apply (W x x'); auto; lia|apply (W x' x); auto; lia].
  Qed.
  Lemma bound_neg M x w : 0 < M -> 0 < x -> 0 < w -> x * x + 2 * u * x * w + w * w = (u * u - 1) * M -> (u - 1) * M < 2 * (x * x) -> 2 * (w * w) <= (u - 1) * M.
  Proof using All.
    intros HM Hx Hw R Big. pose proof u2 as U. destruct (Z_le_gt_dec (2 * (w * w)) ((u - 1) * M)) as [L|G]; [exact L|exfalso].
    assert (W : forall a b, 0 < a -> a <= b -> a * a + 2 * u * a * b + b * b = (u * u - 1) * M -> (u - 1) * M < 2 * (a * a) -> False).
    { clear - U HM. intros a b Ha Hab R Big. assert (X : 2 * u * a * a <= 2 * u * a * b) by (apply Z.mul_le_mono_nonneg_l; nia). assert (X2 : a * a <= b * b) by (apply Z.mul_le_mono_nonneg; lia).
      assert (Y : (u + 1) * ((u - 1) * M) < (u + 1) * (2 * (a * a))) by (apply Z.mul_lt_mono_pos_l; lia). lia. }
    destruct (Z_le_gt_dec x w) as [L|L]; [apply (W x w); auto; lia|apply (W w x); auto; lia].
  Qed.

  (** Every solution with nonnegative entries is a power times one in the fundamental range. *)
  Lemma descent_pos N : 0 < N -> forall n x y, x <= Z.of_nat n -> 0 < x -> 0 <= y -> sols D N x y ->
    exists x0 y0 k, 0 < x0 /\ 2 * (x0 * x0) <= (u + 1) * N /\ sols D N x0 y0 /\ (x, y) = power D (x0, y0) e k.
  Proof using All.
    intros HN. induction n as [|n IH]; intros x y Hn Hx Hy S; [lia|]. pose proof u2 as U.
    destruct (Z_le_gt_dec (2 * (x * x)) ((u + 1) * N)) as [L|G]; [exists x, y, O; repeat split; auto|].
    pose proof (pos_x N x y HN S Hx) as Px. pose proof (back_sols N x y S) as S'. pose proof (back_times x y) as T. pose proof (back_rel N x y S) as R. cbv zeta in R.
    assert (By : fst (back x y) <= u * x) by (unfold back; cbn [fst]; assert (0 <= D * y * v) by (repeat apply Z.mul_nonneg_nonneg; lia); lia).
    destruct (back x y) as (x', y') eqn:Eb. cbn [fst snd] in *. assert (Ex : x = x' * u + y' * v * D) by (unfold times in T; cbn [fst snd] in T; injection T as T1 T2; lia).
    destruct (Z_lt_le_dec y' 0) as [Ny|Ny].
    - exists x', y', 1%nat. cbn [power]. rewrite T. repeat split; auto. assert (0 <= (- y') * v * D) by (repeat apply Z.mul_nonneg_nonneg; lia). apply (bound_pos N x x'); auto; lia.
    - assert (0 <= y' * v * D) by (repeat apply Z.mul_nonneg_nonneg; lia). destruct (IH x' y') as (x0 & y0 & k & H1 & H2 & H3 & H4); auto; [clear IH; nia|]. exists x0, y0, (Datatypes.S k). cbn [power]. rewrite <- H4, T. repeat split; auto.
  Qed.
  Lemma descent_neg M : 0 < M -> forall n x y, y <= Z.of_nat n -> 0 <= x -> 0 < y -> sols D (- M) x y ->
    exists x0 y0 k, 0 < y0 /\ 2 * (x0 * x0) <= (u - 1) * M /\ sols D (- M) x0 y0 /\ (x, y) = power D (x0, y0) e k.
  Proof using All.
    intros HM. induction n as [|n IH]; intros x y Hn Hx Hy S; [lia|]. pose proof u2 as U.
    destruct (Z_le_gt_dec (2 * (x * x)) ((u - 1) * M)) as [L|G]; [exists x, y, O; repeat split; auto|].
    pose proof (pos_y (- M) x y ltac:(lia) S Hy) as Py. pose proof (back_sols (- M) x y S) as S'. pose proof (back_times x y) as T. pose proof (back_rel (- M) x y S) as R. cbv zeta in R.
    destruct (back x y) as (x', y') eqn:Eb. cbn [fst snd] in *. assert (Ey : y = x' * v + y' * u) by (unfold times in T; cbn [fst snd] in T; injection T as T1 T2; lia).
    destruct (Z_lt_le_dec x' 0) as [Nx|Nx].
    - exists x', y', 1%nat. cbn [power]. rewrite T. repeat split; auto. replace (x' * x') with ((- x') * (- x')) by ring.
      assert (0 < x) by (assert (0 < (u - 1) * M) by (apply Z.mul_pos_pos; lia); nia). apply (bound_neg M x (- x')); auto; lia.
    - assert (0 <= x' * v) by (repeat apply Z.mul_nonneg_nonneg; lia). destruct (IH x' y') as (x0 & y0 & k & H1 & H2 & H3 & H4); auto; [clear IH; nia|]. exists x0, y0, (Datatypes.S k). cbn [power]. rewrite <- H4, T. repeat split; auto.
  Qed.
End classes.
