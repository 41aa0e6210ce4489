(** * C27: continued fractions of general quadratic irrationals (p + sqrt d)/q *)
From Coq Require Import ZArith List Lia Bool.
From Verif Require Import Base Py Loop Core_Model Core_Spec Core_Props Pell_Model Pell_Spec Pell_Proofs Pell_Proofs3 Pell_Proofs8 Pell_Props.
Import ListNotations.
Open Scope Z_scope.

(** [a] are the partial quotients of (p + sqrt d)/q, for q > 0: all but the first are positive, and the convergents x/y are
    alternately below and above the number.  With z = q x - p y, x/y is below (p + sqrt d)/q if |z| < y sqrt d, and above it if
    z > y sqrt d. *)
Definition cf_quadratic (d p q : Z) (a : nat -> Z) : Prop :=
  (forall k, 1 <= a (S k)) /\ forall x y, convergents_of a x y -> forall k,
    let z := q * x k - p * y k in
    1 <= y k /\ Z.of_nat k <= y k /\ (if Nat.even k then z * z < d * (y k * y k) else d * (y k * y k) < z * z /\ 0 < z).

(** An integer lies between the number and its conjugate: (p - sqrt d)/q < m <= (p + sqrt d)/q. *)
Definition separated (d p q : Z) : Prop := exists m, (m * q - p <= 0 \/ (m * q - p) * (m * q - p) <= d) /\ (0 <= m * q - p \/ (m * q - p) * (m * q - p) < d).

(** QuadraticIrrational(d, p, q) is the continued fraction of (p + sqrt d)/q if q is positive and divides d - p^2 and an integer
    lies between the number and its conjugate. *)
Theorem C27_quadratic d p q fuel : 0 < d -> not_square d -> exact_range d -> 1 <= q -> (q | d - p * p) -> separated d p q -> (p, q) <> (0, 1) -> 2 * d + 3 < 2 ^ Z.of_nat fuel ->
  exists c a j L, QuadraticIrrational fuel d p q = Ret c /\ cf_quadratic d p q a /\ (forall m, partial_quotients c m = map a (seq 0 m)) /\
    pre_period c = map a (seq 0 j) /\ period_length c = Z.of_nat L /\ (1 <= L)%nat /\ fundamental_period c = map a (seq j L) /\ forall k, (j <= k)%nat -> a (k + L)%nat = a k.
Proof.
  intros H N E Hq Dv (m & S1 & S2) Npq Hf. pose proof (pos2 d H N) as H2. pose proof (exact_sqrt d ltac:(lia) E) as Es. set (r := Z.sqrt d) in *.
  assert (Hd : r * r < d < (r + 1) * (r + 1)). { pose proof (Z.sqrt_spec d ltac:(lia)) as SS. fold r in SS. unfold Z.succ in SS. specialize (N r). lia. }
  assert (Hr : 1 <= r). { assert (0 <= r) by apply Z.sqrt_nonneg. destruct (Z.eq_dec r 0) as [E0|]; [rewrite E0 in Hd; lia|lia]. } clearbody r.
  assert (Sep : p - (p + r) / q * q <= r).
  { assert (m <= (p + r) / q) as M1. { apply Z.div_le_lower_bound; [lia|]. destruct S1 as [S1|S1]; [lia|]. assert (m * q - p <= r); [|lia]. destruct (Z_le_gt_dec (m * q - p) r) as [|G]; [assumption|]. assert ((r + 1) * (r + 1) <= (m * q - p) * (m * q - p)) by (apply Z.mul_le_mono_nonneg; lia). lia. }
    assert (- r <= m * q - p). { destruct S2 as [S2|S2]; [lia|]. destruct (Z_le_gt_dec (- r) (m * q - p)) as [|G]; [assumption|]. assert ((r + 1) * (r + 1) <= (p - m * q) * (p - m * q)) by (apply Z.mul_le_mono_nonneg; lia). lia. }
    assert (m * q <= (p + r) / q * q) by (apply Z.mul_le_mono_nonneg_r; lia). lia. }
  destruct (tq_repeat d r p q Hr Hd Hq Dv Sep) as (j & i & Hji & Hi & Eji & First). exists (qobj d r p q j i), (aq d r p q), j, (i - j)%nat.
  split; [apply quad_ok; auto; nia|]. split.
  { split; [intros k; apply aq_pos; assumption|]. intros x y [C0 C1 CR] k. cbv zeta. pose proof (y_pos d r p q Hr Hd Hq Dv Sep x y C0 C1 CR k) as Y. split; [apply Y|]. split; [apply Y|]. apply (sides d r p q Hr Hd Hq Dv Sep x y C0 C1 CR k). }
  split; [intros; apply quad_quotients; auto|]. split; [reflexivity|]. split; [cbn [period_length qobj]; lia|]. split; [lia|]. split; [reflexivity|].
  intros k Hk. unfold aq. f_equal. replace (k + (i - j))%nat with (i + (k - j))%nat by lia. rewrite <- (tq_shift d r p q j i (k - j) Eji). f_equal. lia.
Qed.
Print Assumptions C27_quadratic.
Example C27_quadratic_example : 0 < 13 /\ not_square 13 /\ exact_range 13 /\ 1 <= 3 /\ (3 | 13 - 5 * 5) /\ separated 13 5 3 /\ (5, 3) <> (0, 1) /\
  bind (QuadraticIrrational 6 13 5 3) (fun c => Ret (pre_period c, fundamental_period c)) = Ret ([2], [1; 6; 1; 1; 1]).
Proof.
  repeat split; try lia; try congruence.
  - intros k Hk. assert (k * k = 13) by exact Hk. assert (-4 < k < 4) by nia. assert (k = -3 \/ k = -2 \/ k = -1 \/ k = 0 \/ k = 1 \/ k = 2 \/ k = 3) by lia. intuition subst; discriminate.
  - left. reflexivity.
  - exists (-4). reflexivity.
  - exists 1. split; [left|right]; lia.
Qed.

(** The three hypotheses are needed.  1. Negative q: the first partial quotient of (-20 + sqrt 2)/(-1) = 20 - sqrt 2 = 18.58...
    is 18, the code gives 19. *)
Theorem C27_quadratic_negative_refuted : exists c, QuadraticIrrational 6 2 (-20) (-1) = Ret c /\ partial_quotients c 1 = [19] /\ 18 < 20 /\ (20 - 18) * (20 - 18) > 2 /\ (20 - 19) * (20 - 19) < 2.
Proof. eexists. vm_compute. repeat split; reflexivity. Qed.
Print Assumptions C27_quadratic_negative_refuted.
(** 2. No integer between the conjugates: a later partial quotient is negative; the third value of convergents() for
    (-18 + sqrt 2)/7 = -2.36... is above it instead of below. *)
Theorem C27_quadratic_separated_refuted : exists c x y, QuadraticIrrational 6 2 (-18) 7 = Ret c /\ partial_quotients c 3 = [-3; 2; -2] /\ convergents c 3 = [(-3, 1); (-5, 2); (x, y)] /\
  0 < 7 /\ (7 | 2 - (-18) * (-18)) /\ ~ cf_quadratic 2 (-18) 7 (fun k => nth k (partial_quotients c (S k)) 0).
Proof.
  eexists. exists 7, (-3). split; [vm_compute; reflexivity|]. split; [vm_compute; reflexivity|]. split; [vm_compute; reflexivity|]. split; [lia|]. split; [exists (-46); reflexivity|].
  intros (P & _). specialize (P 1%nat). vm_compute in P. apply P. reflexivity.
Qed.
Print Assumptions C27_quadratic_separated_refuted.
(** 3. q does not divide d - p^2: the table of states is started with the state before scaling, which may be met later by
    accident.  For (10 + sqrt 7)/4 = 3.1614... the code finds the period [3, 6]; the fourth convergent would be 379/120 = 3.158...,
    which is below the number instead of above it. *)
Theorem C27_quadratic_scaled_refuted : exists c, QuadraticIrrational 6 7 10 4 = Ret c /\ pre_period c = [] /\ fundamental_period c = [3; 6] /\ separated 7 10 4 /\
  ~ cf_quadratic 7 10 4 (fun k => nth k (partial_quotients c (S k)) 0).
Proof.
  eexists. split; [vm_compute; reflexivity|]. split; [reflexivity|]. split; [reflexivity|]. split; [exists 2; split; [left|right]; lia|].
  intros (_ & P). set (a := fun k : nat => _) in P.
  set (cv := fix cv (k : nat) : Z * Z * Z * Z := match k with O => (a 0%nat, 1, a 1%nat * a 0%nat + 1, a 1%nat) | S k => let '(x0, y0, x1, y1) := cv k in (x1, y1, a (S (S k)) * x1 + x0, a (S (S k)) * y1 + y0) end).
  assert (C : convergents_of a (fun k => fst (fst (fst (cv k)))) (fun k => snd (fst (fst (cv k))))).
  { constructor; [split; reflexivity|split; reflexivity|]. intros k. cbn [cv]. destruct (cv k) as (((x0, y0), x1), y1). cbn [fst snd]. auto. }
  specialize (P _ _ C 3%nat). destruct P as (_ & _ & P & _). vm_compute in P. discriminate P.
Qed.
Print Assumptions C27_quadratic_scaled_refuted.
