(** * Every solution of x^2 - d y^2 = 1 or -1 is a convergent of sqrt d *)
From Coq Require Import ZArith List Bool Lia.
From Verif Require Import Base Pell_Proofs.
Import ListNotations.
Open Scope Z_scope.

Lemma diff_sign a b : 0 < a + b -> 0 < a - b -> 0 < a * a - b * b.
Proof. intros. replace (a * a - b * b) with ((a + b) * (a - b)) by ring. apply Z.mul_pos_pos; lia. Qed.

(** A pair and one of norm with the opposite sign: the former is on the outer side. *)
Lemma opposite d x y a b sg q : 0 < x -> 0 < y -> 0 < a -> 0 < b -> 0 < q -> (sg = 1 \/ sg = -1) ->
  x * x - d * y * y = sg -> a * a - d * b * b = - sg * q -> 0 < sg * (x * b - y * a).
Proof.
  intros Hx Hy Ha Hb Hq Hs E1 E2. assert (X : (x * b) * (x * b) - (y * a) * (y * a) = sg * (b * b + q * (y * y))) by (replace ((x * b) * (x * b) - (y * a) * (y * a)) with ((x * x - d * y * y) * (b * b) - (a * a - d * b * b) * (y * y)) by ring; rewrite E1, E2; ring).
  assert (0 < x * b) by (apply Z.mul_pos_pos; lia). assert (0 < y * a) by (apply Z.mul_pos_pos; lia). assert (0 < b * b) by (apply Z.mul_pos_pos; lia). assert (0 < q * (y * y)) by (apply Z.mul_pos_pos; [lia|apply Z.mul_pos_pos; lia]).
  set (u := x * b) in *. set (v := y * a) in *. set (bb := b * b) in *. set (qy := q * (y * y)) in *. clearbody u v bb qy. clear E1 E2.
  destruct Hs as [-> | ->]; destruct (Z_lt_le_dec (v - u) 0); nia.
Qed.

(** Same sign: the pair with the greater y is on the inner side. *)
Lemma same_side d x y a b sg q : 0 < x -> 0 < y -> 0 < a -> 0 < b <= y -> 0 < q -> (sg = 1 \/ sg = -1) ->
  x * x - d * y * y = sg -> a * a - d * b * b = sg * q -> sg * (x * b - y * a) <= 0.
Proof.
  intros Hx Hy Ha Hb Hq Hs E1 E2. assert (X : (x * b) * (x * b) - (y * a) * (y * a) = sg * (b * b - q * (y * y))) by (replace ((x * b) * (x * b) - (y * a) * (y * a)) with ((x * x - d * y * y) * (b * b) - (a * a - d * b * b) * (y * y)) by ring; rewrite E1, E2; ring).
  assert (0 < x * b) by (apply Z.mul_pos_pos; lia). assert (0 < y * a) by (apply Z.mul_pos_pos; lia). assert (b * b <= y * y) by (apply Z.mul_le_mono_nonneg; lia).
  assert (1 * (y * y) <= q * (y * y)) by (apply Z.mul_le_mono_nonneg_r; [apply Z.mul_nonneg_nonneg; lia|lia]).
  set (u := x * b) in *. set (v := y * a) in *. set (bb := b * b) in *. set (qy := q * (y * y)) in *. set (yy := y * y) in *. clearbody u v bb qy yy. clear E1 E2.
  destruct Hs as [-> | ->]; nia.
Qed.

Lemma no_two a b : 0 < a -> 0 < b -> a * a - b * b <> 2.
Proof. intros Ha Hb E. assert (b < a) by nia. assert (a = b + 1 \/ b + 2 <= a) as [-> |L] by lia; nia. Qed.

(** Opposite norms 1 and q: the sign of the product x a - d y b. *)
Lemma cross_sign d x y a b sg q : 2 <= d -> 0 < x -> 0 < y -> 0 < a -> 0 < b <= y -> 0 < q < d -> (sg = 1 \/ sg = -1) ->
  x * x - d * y * y = sg -> a * a - d * b * b = - sg * q -> sg * (x * a - d * y * b) < 0.
Proof.
  intros Hd Hx Hy Ha Hb Hq Hs E1 E2.
  assert (X : (x * a) * (x * a) - (d * y * b) * (d * y * b) = sg * (d * (b * b - q * (y * y))) - q).
  { replace ((x * a) * (x * a) - (d * y * b) * (d * y * b)) with ((x * x - d * y * y) * (a * a - d * b * b) + d * (b * b) * (x * x - d * y * y) + d * (y * y) * (a * a - d * b * b)) by ring. rewrite E1, E2. destruct Hs as [-> | ->]; ring. }
  assert (0 < x * a) by (apply Z.mul_pos_pos; lia). assert (0 < d * y * b) by (repeat apply Z.mul_pos_pos; lia).
  assert (Hbb : 1 <= b * b <= y * y) by (split; [nia|apply Z.mul_le_mono_nonneg; lia]).
  destruct Hs as [-> | ->].
  - assert (1 * (y * y) <= q * (y * y)) by (apply Z.mul_le_mono_nonneg_r; lia). assert (0 <= d * (q * (y * y) - b * b)) by (apply Z.mul_nonneg_nonneg; lia).
    set (u := x * a) in *. set (v := d * y * b) in *. set (w := d * (q * (y * y) - b * b)) in *. assert (u * u - v * v = - w - q) by (rewrite X; unfold w; ring). clearbody u v w. clear - H H0 H2 H3 Hq. nia.
  - assert (D : (q = 1 /\ y = b) \/ 0 < d * (q * (y * y) - b * b) - q).
    { destruct (Z.eq_dec q 1) as [-> |Nq].
      - destruct (Z.eq_dec y b) as [-> |Ny]; [left; auto|right]. assert (b * b + 2 <= y * y) by nia. nia.
      - right. assert (2 * (y * y) <= q * (y * y)) by (apply Z.mul_le_mono_nonneg_r; lia). assert (q - 1 <= q * (y * y) - b * b) by nia. assert ((q + 1) * (q - 1) <= d * (q * (y * y) - b * b)) by (apply Z.mul_le_mono_nonneg; lia). nia. }
    destruct D as [(-> & ->)|D].
    + exfalso. apply (no_two a x Ha Hx). lia.
    + set (u := x * a) in *. set (v := d * y * b) in *. set (w := d * (q * (y * y) - b * b) - q) in *. assert (u * u - v * v = w) by (rewrite X; unfold w; ring). clearbody u v w. clear - H H0 D H1. nia.
Qed.

Section complete.
  Context (d r : Z).
  Hypothesis (Hr : 1 <= r) (Hd : r * r < d < (r + 1) * (r + 1)).
  Local Notation A := (A d r). Local Notation B := (B d r). Local Notation sign := (sign).

  Lemma find_k y : 1 <= y -> exists k, B k <= y < B (S k).
  Proof using Hd Hr.
    intros Hy. assert (X : forall n, (exists k, B k <= y < B (S k)) \/ B n <= y).
    { induction n as [|n [H|H]]; [right; rewrite B0; lia|left; exact H|]. destruct (Z_lt_le_dec y (B (S n))); [left; exists n; lia|right; lia]. }
    destruct (X (S (Z.to_nat y))) as [H|H]; [exact H|]. pose proof (B_grow d r Hr Hd (S (Z.to_nat y))). lia.
  Qed.

  Lemma coords k x y : exists s t, x = s * A k + t * A (S k) /\ y = s * B k + t * B (S k).
  Proof using Hd Hr.
    pose proof (det d r Hr Hd k) as D. pose proof (sign_sq k) as Q. set (w := sign k) in *. clearbody w.
    exists (w * (A (S k) * y - x * B (S k))), (w * (x * B k - y * A k)).
    set (a := A k) in *. set (b := B k) in *. set (a' := A (S k)) in *. set (b' := B (S k)) in *. clearbody a b a' b'.
    split.
    - transitivity (w * (a' * b - a * b') * x); [rewrite D, Q; ring|ring].
    - transitivity (w * (a' * b - a * b') * y); [rewrite D, Q; ring|ring].
  Qed.

  Theorem unit_is_convergent x y sg : 1 <= x -> 1 <= y -> (sg = 1 \/ sg = -1) -> x * x - d * y * y = sg -> exists k, x = A k /\ y = B k.
  Proof using Hd Hr.
    intros Hx Hy Hs E. destruct (find_k y Hy) as (k & Hk). exists k. destruct (coords k x y) as (s & t & Ex & Ey).
    pose proof (norm d r Hr Hd k) as N1. pose proof (norm d r Hr Hd (S k)) as N2. pose proof (polar d r Hr Hd k) as N3. rewrite sign_S in N2. rewrite Z.opp_involutive in N2.
    pose proof (det d r Hr Hd k) as D. pose proof (AB_pos d r Hr Hd k) as (PA & PB & LA & LB).
    pose proof (Qn_pos d r Hr Hd (S k)) as Q1. pose proof (Qn_pos d r Hr Hd (S (S k))) as Q2. pose proof (Pn_pos d r Hr Hd (S (S k))) as P2. pose proof (PQ_next d r Hr Hd (S k)) as EQ.
    assert (W : sign k = 1 \/ sign k = -1) by (unfold sign; destruct (Nat.even k); auto).
    assert (d2 : 2 <= d) by (clear - Hr Hd; nia).
    assert (Qd : Qn d r (S k) < d) by (clear - EQ Q1 Q2 P2; nia).
    set (w := sign k) in *. set (a := A k) in *. set (b := B k) in *. set (a' := A (S k)) in *. set (b' := B (S k)) in *.
    set (q := Qn d r (S k)) in *. set (q' := Qn d r (S (S k))) in *. set (p := Pn d r (S (S k))) in *. clearbody w a b a' b' q q' p.
    assert (D1 : x * b - y * a = t * w) by (rewrite Ex, Ey, <- D; ring).
    assert (D2 : x * b' - y * a' = - s * w) by (rewrite Ex, Ey, <- D; ring).
    assert (Tr : t = 0 \/ (1 <= t /\ s <= -1) \/ (t <= -1 /\ 1 <= s)).
    { destruct (Z.lt_trichotomy t 0) as [T|[T|T]]; [right; right|left; exact T|right; left]; (split; [lia|]).
      - destruct (Z_lt_le_dec 0 s); [lia|]. assert (s * b <= 0) by (apply Z.mul_nonpos_nonneg; lia). assert (t * b' < 0) by (apply Z.mul_neg_pos; lia). lia.
      - destruct (Z_lt_le_dec s 0); [lia|]. assert (0 <= s * b) by (apply Z.mul_nonneg_nonneg; lia). assert (1 * b' <= t * b') by (apply Z.mul_le_mono_nonneg_r; lia). lia. }
    assert (Sw : sg = w \/ sg = - w) by lia.
    destruct Tr as [-> |[(T & S)|(T & S)]].
    - rewrite Z.mul_0_l, Z.add_0_r in *. subst x y. assert (E' : s * s * (- w * q) = sg) by (rewrite <- N1, <- E; ring).
      assert (0 < s) by (clear - Hy PB; nia). assert (1 * 1 <= s * s) by (apply Z.mul_le_mono_nonneg; lia). assert (s * s * q = 1) by (clear - E' Hs W H H0 Q1; destruct Hs, W; subst; nia).
      assert (s = 1) by (clear - H H0 H1 Q1; nia). subst s. lia.
    - destruct Sw as [-> | ->].
      + exfalso. assert (C : w * (x * a - d * y * b) < 0) by (apply (cross_sign d x y a b w q); auto; lia).
        assert (M : x * a - d * y * b = s * (- w * q) + t * (- w * p)) by (rewrite Ex, Ey, <- N1, <- N3; ring).
        rewrite M in C. replace (w * (s * (- w * q) + t * (- w * p))) with ((w * w) * (- s * q - t * p)) in C by ring.
        assert (EN : w = s * s * (- w * q) + 2 * s * t * (- w * p) + t * t * (w * q')) by (rewrite <- N1, <- N2, <- N3, <- E, Ex, Ey; ring).
        assert (ww : w * w = 1) by (destruct W as [-> | ->]; reflexivity). rewrite ww in C.
        assert (EN' : 1 = - s * s * q - 2 * s * t * p + t * t * q') by (rewrite <- ww; rewrite EN at 2; destruct W as [-> | ->]; ring). clear EN.
        assert (t * t >= 1) by (clear - T; nia). assert (t * t * q' >= 1) by (clear - H Q2; nia). set (z := t * t * q') in *. clearbody z.
        assert (0 < t * p) by (apply Z.mul_pos_pos; lia). assert (0 < - s * (s * q + 2 * (t * p))) by (apply Z.mul_pos_pos; lia). replace (- s * (s * q + 2 * (t * p))) with (- s * s * q - 2 * s * t * p) in H2 by ring. lia.
      + exfalso. assert (O : 0 < - w * (x * b' - y * a')) by (apply (opposite d x y a' b' (- w) q'); try lia; rewrite Z.opp_involutive; exact N2).
        rewrite D2 in O. replace (- w * (- s * w)) with (w * w * s) in O by ring. assert (w * w = 1) by (destruct W as [-> | ->]; reflexivity). lia.
    - exfalso. assert (ww : w * w = 1) by (destruct W as [-> | ->]; reflexivity). destruct Sw as [-> | ->].
      + assert (O : 0 < w * (x * b - y * a)) by (apply (opposite d x y a b w q); try lia; exact N1). rewrite D1 in O. replace (w * (t * w)) with (w * w * t) in O by ring. lia.
      + assert (O : - w * (x * b - y * a) <= 0) by (apply (same_side d x y a b (- w) q); try lia; exact N1). rewrite D1 in O. replace (- w * (t * w)) with (- (w * w) * t) in O by ring. lia.
  Qed.

  (** Units -1 exist exactly when the period is odd. *)
  Lemma sq_multiple L m : sq d r L = (r, 1) -> sq d r (m * L) = (r, 1).
  Proof. intros E. induction m as [|m IH]; [reflexivity|]. cbn [Nat.mul]. rewrite <- IH. symmetry. replace (m * L)%nat with (0 + m * L)%nat at 1 by lia. rewrite (sq_shift d r 0 L (m * L)); [reflexivity|]. rewrite E. reflexivity. Qed.

  Lemma unit_index L k : (1 <= L)%nat -> sq d r L = (r, 1) -> (forall k, (1 <= k < L)%nat -> sq d r k <> (r, 1)) -> sq d r k = (r, 1) -> exists m, k = (m * L)%nat.
  Proof.
    intros HL E Min Hk. exists (k / L)%nat. pose proof (Nat.div_mod k L ltac:(lia)) as DM. pose proof (Nat.mod_upper_bound k L ltac:(lia)) as MB.
    destruct (Nat.eq_dec (k mod L) 0) as [Z0|Z0]; [lia|]. exfalso. apply (Min (k mod L)%nat); [lia|]. rewrite <- Hk. rewrite DM at 2. rewrite (Nat.mul_comm L), (sq_shift d r (k / L * L)%nat 0); [reflexivity|]. rewrite sq_multiple by exact E. reflexivity.
  Qed.
End complete.
