(** * Every primitive solution of x^2 - d y^2 = n with n^2 < d is a convergent of sqrt d *)
From Coq Require Import ZArith List Bool Lia.
From Verif Require Import Base Pell_Proofs Pell_Proofs2.
Import ListNotations.
Open Scope Z_scope.

(** Norms of opposite signs, as [opposite] but of any size. *)
Lemma opposite_gen d x y a b sg n q : 0 < x -> 0 < y -> 0 < a -> 0 < b -> 0 < n -> 0 < q -> (sg = 1 \/ sg = -1) ->
  x * x - d * y * y = sg * n -> a * a - d * b * b = - sg * q -> 0 < sg * (x * b - y * a).
Proof.
  intros Hx Hy Ha Hb Hn Hq Hs E1 E2. assert (X : (x * b) * (x * b) - (y * a) * (y * a) = sg * (n * (b * b) + q * (y * y))) by (replace ((x * b) * (x * b) - (y * a) * (y * a)) with ((x * x - d * y * y) * (b * b) - (a * a - d * b * b) * (y * y)) by ring; rewrite E1, E2; ring).
  assert (0 < x * b) by (apply Z.mul_pos_pos; lia). assert (0 < y * a) by (apply Z.mul_pos_pos; lia). assert (0 < n * (b * b)) by (apply Z.mul_pos_pos; [lia|apply Z.mul_pos_pos; lia]). assert (0 < q * (y * y)) by (apply Z.mul_pos_pos; [lia|apply Z.mul_pos_pos; lia]).
  set (u := x * b) in *. set (v := y * a) in *. set (bb := n * (b * b)) in *. set (qy := q * (y * y)) in *. clearbody u v bb qy. clear E1 E2.
  destruct Hs as [-> | ->]; destruct (Z_lt_le_dec (v - u) 0); nia.
Qed.

Lemma sq_lt_cancel a b : 0 <= b -> a * a < b * b -> a < b.
Proof. intros. nia. Qed.

(** The two arithmetic contradictions: q n = G - e^2 with G > (q + e)^2, and q n = e^2 - G with G < (e - q)^2. *)
Lemma far_above d q n e T : 1 <= q -> 0 <= e -> 1 <= T -> 0 < n -> n * n < d -> q * n = d * (T * T) - e * e -> (q + e) * (q + e) < d * (T * T) -> False.
Proof.
  intros Hq He HT Hn Hd E L. assert (TT : 1 <= T * T) by nia. assert (G : d <= d * (T * T)) by (assert (0 < d) by nia; nia).
  set (g := d * (T * T)) in *. clearbody g. assert (N1 : q + 2 * e < n) by nia.
  assert (K : q * q * ((n - e) * (n - e) - g) = (g - e * e) * (g - (q + e) * (q + e))).
  { replace (q * q * ((n - e) * (n - e) - g)) with ((q * n - q * e) * (q * n - q * e) - q * q * g) by ring. rewrite E. ring. }
  assert (0 < (g - e * e) * (g - (q + e) * (q + e))) by (apply Z.mul_pos_pos; nia). rewrite <- K in H.
  assert (0 < (n - e) * (n - e) - g) by (apply (Z.mul_pos_cancel_l (q * q)); [nia|exact H]).
  assert ((n - e) * (n - e) <= n * n) by (apply Z.mul_le_mono_nonneg; lia). lia.
Qed.
Lemma far_below d q n e T : 1 <= q -> q <= e -> 1 <= T -> 0 < n -> n * n < d -> q * n = e * e - d * (T * T) -> d * (T * T) < (e - q) * (e - q) -> False.
Proof.
  intros Hq He HT Hn Hd E L. assert (TT : 1 <= T * T) by nia. assert (G : d <= d * (T * T)) by (assert (0 < d) by nia; nia).
  set (g := d * (T * T)) in *. clearbody g. assert (N1 : 2 * e - q < n) by nia. assert (e * e <= n * n) by (apply Z.mul_le_mono_nonneg; lia). nia.
Qed.

Section small.
  Context (d r : Z).
  Hypothesis (Hr : 1 <= r) (Hd : r * r < d < (r + 1) * (r + 1)).
  Local Notation A := (A d r). Local Notation B := (B d r). Local Notation sign := (sign).

  Lemma find_x x : r <= x -> exists k, A k <= x < A (S k).
  Proof using Hd Hr.
    intros Hx. assert (X : forall n, (exists k, A k <= x < A (S k)) \/ A n <= x).
    { induction n as [|n [H|H]]; [right; rewrite A0; lia|left; exact H|]. destruct (Z_lt_le_dec x (A (S n))); [left; exists n; lia|right; lia]. }
    destruct (X (S (Z.to_nat x))) as [H|H]; [exact H|]. assert (G : forall k, Z.of_nat k <= A k) by (induction k as [|k IH]; [rewrite A0; lia|]; pose proof (AB_pos d r Hr Hd k); lia). specialize (G (S (Z.to_nat x))). lia.
  Qed.

  Lemma coords_sign k x y s t : x = s * A k + t * A (S k) -> y = s * B k + t * B (S k) -> (B k <= y < B (S k)) \/ (A k <= x < A (S k)) ->
    t = 0 \/ (1 <= t /\ s <= -1) \/ (t <= -1 /\ 1 <= s).
  Proof using Hd Hr.
    pose proof (AB_pos d r Hr Hd k) as (PA & PB & LA & LB). set (a := A k) in *. set (b := B k) in *. set (a' := A (S k)) in *. set (b' := B (S k)) in *. clearbody a b a' b'.
    assert (G : forall z c c', z = s * c + t * c' -> 1 <= c <= c' -> c <= z < c' -> t = 0 \/ (1 <= t /\ s <= -1) \/ (t <= -1 /\ 1 <= s)).
    { intros z c c' E Hc Hz. destruct (Z.lt_trichotomy t 0) as [T|[T|T]]; [right; right|left; exact T|right; left]; (split; [lia|]).
      - destruct (Z_lt_le_dec 0 s); [lia|]. assert (s * c <= 0) by (apply Z.mul_nonpos_nonneg; lia). assert (t * c' < 0) by (apply Z.mul_neg_pos; lia). lia.
      - destruct (Z_lt_le_dec s 0); [lia|]. assert (0 <= s * c) by (apply Z.mul_nonneg_nonneg; lia). assert (1 * c' <= t * c') by (apply Z.mul_le_mono_nonneg_r; lia). lia. }
    intros Ex Ey [H|H]; [apply (G y b b'); auto; lia|apply (G x a a'); auto; lia].
  Qed.

  Theorem small_norm_convergent x y n : 1 <= x -> 1 <= y -> Z.gcd x y = 1 -> n <> 0 -> n * n < d -> x * x - d * y * y = n -> exists k, x = A k /\ y = B k.
  Proof using Hd Hr.
    intros Hx Hy Hg Hn Hnd E.
    assert (Hxr : n < 0 -> r <= x).
    { intros Neg. destruct (Z_lt_le_dec x r) as [L|L]; [exfalso|exact L]. assert (x * x <= (r - 1) * (r - 1)) by (apply Z.mul_le_mono_nonneg; lia).
      assert (d <= d * y * y) by (assert (1 <= y * y) by nia; nia). assert (n <= - (r + 1)) by nia. assert ((r + 1) * (r + 1) <= n * n) by nia. lia. }
    assert (Hk : exists k, (0 < n -> B k <= y < B (S k)) /\ (n < 0 -> A k <= x < A (S k))).
    { destruct (Z.lt_trichotomy n 0) as [H|[H|H]]; [|lia|].
      - destruct (find_x x (Hxr H)) as (k & Hk). exists k. split; [lia|auto].
      - destruct (find_k d r Hr Hd y Hy) as (k & Hk). exists k. split; [auto|lia]. }
    destruct Hk as (k & Ky & Kx). exists k. destruct (coords d r Hr Hd k x y) as (s & t & Ex & Ey).
    assert (Tr := coords_sign k x y s t Ex Ey ltac:(destruct (Z.lt_trichotomy n 0) as [H|[H|H]]; [right; auto|lia|left; auto])).
    pose proof (norm d r Hr Hd k) as N1. pose proof (norm d r Hr Hd (S k)) as N2. pose proof (polar d r Hr Hd k) as N3. rewrite sign_S in N2. rewrite Z.opp_involutive in N2.
    pose proof (det d r Hr Hd k) as D. pose proof (AB_pos d r Hr Hd k) as (PA & PB & LA & LB).
    pose proof (Qn_pos d r Hr Hd (S k)) as Q1. pose proof (Qn_pos d r Hr Hd (S (S k))) as Q2. pose proof (Pn_pos d r Hr Hd (S (S k))) as P2. pose proof (PQ_next d r Hr Hd (S k)) as EQ.
    assert (RQ : r < Pn d r (S (S k)) + Qn d r (S (S k))) by (pose proof (sq_reduced d r Hr Hd (S (S k))) as (_ & H & _); unfold Pn, Qn; lia).
    assert (W : sign k = 1 \/ sign k = -1) by (unfold sign; destruct (Nat.even k); auto).
    assert (d0 : 0 < d) by (clear - Hr Hd; nia).
    set (w := sign k) in *. set (a := A k) in *. set (b := B k) in *. set (a' := A (S k)) in *. set (b' := B (S k)) in *.
    set (q := Qn d r (S k)) in *. set (q' := Qn d r (S (S k))) in *. set (p := Pn d r (S (S k))) in *. clearbody w a b a' b' q q' p.
    assert (ww : w * w = 1) by (destruct W as [-> | ->]; reflexivity).
    assert (D1 : x * b - y * a = t * w) by (rewrite Ex, Ey, <- D; ring).
    assert (D2 : x * b' - y * a' = - s * w) by (rewrite Ex, Ey, <- D; ring).
    assert (Eb : q * b' = a + p * b).
    { assert (Z : w * (q * b') = w * (a + p * b)).
      { transitivity (a * (a' * b - a * b') - b * (a' * a - d * b' * b)); [|rewrite D, N3; ring]. transitivity (- (- w * q) * b'); [ring|]. rewrite <- N1. ring. }
      destruct W as [-> | ->]; lia. }
    assert (Ea : q * a' = p * a + d * b).
    { assert (Z : w * (q * a') = w * (p * a + d * b)).
      { transitivity (d * b * (a' * b - a * b') - a * (a' * a - d * b' * b)); [|rewrite D, N3; ring]. transitivity (- (- w * q) * a'); [ring|]. rewrite <- N1. ring. }
      destruct W as [-> | ->]; lia. }
    assert (EN : w * n = - (s * s * q) - 2 * (s * t * p) + t * t * q').
    { transitivity (w * (s * s * (- w * q) + 2 * s * t * (- w * p) + t * t * (w * q'))); [rewrite <- N1, <- N2, <- N3, <- E, Ex, Ey; ring|]. transitivity (w * w * (- (s * s * q) - 2 * (s * t * p) + t * t * q')); [ring|rewrite ww; ring]. }
    destruct Tr as [-> |[(T & S)|(T & S)]].
    - rewrite Z.mul_0_l, Z.add_0_r in *. assert (0 < s) by (clear - Hy Ey PB; nia).
      assert (s | 1) by (rewrite <- Hg; apply Z.gcd_greatest; [exists a; lia|exists b; lia]). apply Z.divide_1_r_nonneg in H0; [|lia]. subst s. lia.
    - (* s < 0 < t *)
      destruct (Z_lt_le_dec 0 (w * n)) as [Wn|Wn].
      + (* norms of (x, y) and (a, b) of opposite signs *)
        exfalso. set (S1 := - s). set (nu := w * n) in *. assert (HS : 1 <= S1) by (unfold S1; lia).
        assert (Es : s = - S1) by (unfold S1; lia). clearbody S1. subst s.
        assert (nn : nu * nu < d) by (unfold nu; replace (w * n * (w * n)) with (w * w * (n * n)) by ring; rewrite ww; lia).
        set (e := q * S1 - p * t).
        destruct (Z_lt_le_dec e 0) as [He|He].
        * assert (nu >= 1 + p + q').
          { rewrite EN. replace (- (- S1 * - S1 * q) - 2 * (- S1 * t * p) + t * t * q') with (S1 * (t * p - S1 * q) + S1 * t * p + t * t * q') by ring.
            assert (1 * 1 <= S1 * (t * p - S1 * q)) by (apply Z.mul_le_mono_nonneg; unfold e in He; lia). assert (1 * p <= S1 * t * p) by (apply Z.mul_le_mono_nonneg_r; [lia|]; change 1 with (1 * 1); apply Z.mul_le_mono_nonneg; lia). assert (1 * q' <= t * t * q') by (apply Z.mul_le_mono_nonneg_r; [lia|]; change 1 with (1 * 1); apply Z.mul_le_mono_nonneg; lia). lia. }
          assert ((r + 1) * (r + 1) <= nu * nu) by (apply Z.mul_le_mono_nonneg; lia). lia.
        * assert (Eqn : q * nu = d * (t * t) - e * e).
          { rewrite EN. unfold e. replace d with (q' * q + p * p) by lia. ring. }
          apply (far_above d q nu e t); auto.
          assert (Ey' : q * y = t * a - e * b) by (rewrite Ey; unfold e; transitivity (- S1 * q * b + t * (q * b')); [ring|rewrite Eb; ring]).
          assert (Ex' : q * x = t * d * b - e * a) by (rewrite Ex; unfold e; transitivity (- S1 * q * a + t * (q * a')); [ring|rewrite Ea; ring]).
          destruct (Z.lt_trichotomy n 0) as [N0|[N0|N0]]; [|lia|].
          -- assert (w = -1) by (destruct W as [W|W]; [exfalso; assert (nu = n) by (unfold nu; rewrite W; ring); lia|exact W]). clearbody e nu. clear D. subst w. specialize (Kx N0). assert (q * a <= q * x) by (apply Z.mul_le_mono_nonneg_l; lia).
             assert (Le : (q + e) * a <= t * d * b) by lia. assert (0 <= (q + e) * a) by (apply Z.mul_nonneg_nonneg; lia).
             assert (Sq : ((q + e) * a) * ((q + e) * a) <= (t * d * b) * (t * d * b)) by (apply Z.mul_le_mono_nonneg; lia).
             replace ((t * d * b) * (t * d * b)) with (d * (t * t) * (d * b * b)) in Sq by ring. assert (Hdb : d * b * b = a * a - q) by (clear - N1; lia). rewrite Hdb in Sq.
             assert (0 < d * (t * t) * q) by (apply Z.mul_pos_pos; [apply Z.mul_pos_pos; [lia|apply Z.mul_pos_pos; lia]|lia]). assert (X : (q + e) * (q + e) * (a * a) < d * (t * t) * (a * a)) by (replace ((q + e) * (q + e) * (a * a)) with ((q + e) * a * ((q + e) * a)) by ring; lia).
             apply Z.mul_lt_mono_pos_r in X; [exact X|apply Z.mul_pos_pos; lia].
          -- assert (w = 1) by (destruct W as [W|W]; [exact W|exfalso; assert (nu = - n) by (unfold nu; rewrite W; ring); lia]). clearbody e nu. clear D. subst w. specialize (Ky N0). assert (q * b <= q * y) by (apply Z.mul_le_mono_nonneg_l; lia).
             assert (Le : (q + e) * b <= t * a) by lia. assert (0 <= (q + e) * b) by (apply Z.mul_nonneg_nonneg; lia).
             assert (Sq : ((q + e) * b) * ((q + e) * b) <= (t * a) * (t * a)) by (apply Z.mul_le_mono_nonneg; lia).
             replace ((t * a) * (t * a)) with (t * t * (a * a)) in Sq by ring. assert (Haa : a * a = d * b * b - q) by (clear - N1; lia). rewrite Haa in Sq.
             assert (0 < t * t * q) by (apply Z.mul_pos_pos; [apply Z.mul_pos_pos; lia|lia]). assert (X : (q + e) * (q + e) * (b * b) < d * (t * t) * (b * b)) by (replace ((q + e) * (q + e) * (b * b)) with ((q + e) * b * ((q + e) * b)) by ring; replace (d * (t * t) * (b * b)) with (t * t * (d * b * b)) by ring; lia).
             apply Z.mul_lt_mono_pos_r in X; [exact X|apply Z.mul_pos_pos; lia].
      + exfalso. assert (O : 0 < - w * (x * b' - y * a')).
        { apply (opposite_gen d x y a' b' (- w) (- (w * n)) q'); [lia|lia|lia|lia|destruct W as [W|W]; rewrite W in Wn |- *; lia|lia|lia|rewrite E; transitivity (w * w * n); [rewrite ww; ring|ring]|rewrite N2; ring]. }
        rewrite D2 in O. replace (- w * (- s * w)) with (w * w * s) in O by ring. lia.
    - (* t < 0 < s *)
      exfalso. destruct (Z_lt_le_dec 0 (w * n)) as [Wn|Wn].
      + assert (O : 0 < w * (x * b - y * a)) by (apply (opposite_gen d x y a b w (w * n) q); [lia|lia|lia|lia|lia|lia|lia|rewrite E; transitivity (w * w * n); [rewrite ww; ring|ring]|exact N1]). rewrite D1 in O. replace (w * (t * w)) with (w * w * t) in O by ring. lia.
      + set (T1 := - t). assert (Et : t = - T1) by (unfold T1; lia). assert (HT : 1 <= T1) by (unfold T1; lia). clearbody T1. subst t.
        set (nu := - (w * n)). assert (nu0 : 0 < nu) by (unfold nu; destruct W as [-> | ->]; lia).
        assert (nn : nu * nu < d) by (unfold nu; replace (- (w * n) * - (w * n)) with (w * w * (n * n)) by ring; rewrite ww; lia).
        set (e := q * s - p * T1).
        assert (Eqn : q * nu = e * e - d * (T1 * T1)).
        { unfold nu. rewrite EN. unfold e. replace d with (q' * q + p * p) by lia. ring. }
        assert (Ey' : q * y = e * b - T1 * a) by (rewrite Ey; unfold e; transitivity (s * q * b - T1 * (q * b')); [ring|rewrite Eb; ring]).
        assert (Ex' : q * x = e * a - T1 * d * b) by (rewrite Ex; unfold e; transitivity (s * q * a - T1 * (q * a')); [ring|rewrite Ea; ring]).
        assert (TA : 0 < T1 * a) by (apply Z.mul_pos_pos; lia). assert (TD : 0 < T1 * d * b) by (repeat apply Z.mul_pos_pos; lia).
        destruct (Z.lt_trichotomy n 0) as [N0|[N0|N0]]; [|lia|].
        * assert (w = 1) by (destruct W as [W|W]; [exact W|exfalso; rewrite W in Wn; lia]). clearbody e nu. clear D. subst w. specialize (Kx N0). assert (q * a <= q * x) by (apply Z.mul_le_mono_nonneg_l; lia).
          assert (Le : T1 * d * b <= (e - q) * a) by lia. assert (Heq : q <= e) by (destruct (Z_lt_le_dec e q); [exfalso|assumption]; assert ((e - q) * a < 0) by (apply Z.mul_neg_pos; lia); lia).
          apply (far_below d q nu e T1); auto.
          assert (Sq : (T1 * d * b) * (T1 * d * b) <= ((e - q) * a) * ((e - q) * a)) by (apply Z.mul_le_mono_nonneg; lia).
          replace ((T1 * d * b) * (T1 * d * b)) with (d * (T1 * T1) * (d * b * b)) in Sq by ring. assert (Hdb : d * b * b = a * a + q) by (clear - N1; lia). rewrite Hdb in Sq.
          assert (0 < d * (T1 * T1) * q) by (apply Z.mul_pos_pos; [apply Z.mul_pos_pos; [lia|apply Z.mul_pos_pos; lia]|lia]). assert (X : d * (T1 * T1) * (a * a) < (e - q) * (e - q) * (a * a)) by (replace ((e - q) * (e - q) * (a * a)) with ((e - q) * a * ((e - q) * a)) by ring; lia).
          apply Z.mul_lt_mono_pos_r in X; [exact X|apply Z.mul_pos_pos; lia].
        * assert (w = -1) by (destruct W as [W|W]; [exfalso; rewrite W in Wn; lia|exact W]). clearbody e nu. clear D. subst w. specialize (Ky N0). assert (q * b <= q * y) by (apply Z.mul_le_mono_nonneg_l; lia).
          assert (Le : T1 * a <= (e - q) * b) by lia. assert (Heq : q <= e) by (destruct (Z_lt_le_dec e q); [exfalso|assumption]; assert ((e - q) * b < 0) by (apply Z.mul_neg_pos; lia); lia).
          apply (far_below d q nu e T1); auto.
          assert (Sq : (T1 * a) * (T1 * a) <= ((e - q) * b) * ((e - q) * b)) by (apply Z.mul_le_mono_nonneg; lia).
          replace ((T1 * a) * (T1 * a)) with (T1 * T1 * (a * a)) in Sq by ring. assert (Haa : a * a = d * b * b + q) by (clear - N1; lia). rewrite Haa in Sq.
          assert (0 < T1 * T1 * q) by (apply Z.mul_pos_pos; [apply Z.mul_pos_pos; lia|lia]). assert (X : d * (T1 * T1) * (b * b) < (e - q) * (e - q) * (b * b)) by (replace ((e - q) * (e - q) * (b * b)) with ((e - q) * b * ((e - q) * b)) by ring; replace (d * (T1 * T1) * (b * b)) with (T1 * T1 * (d * b * b)) by ring; lia).
          apply Z.mul_lt_mono_pos_r in X; [exact X|apply Z.mul_pos_pos; lia].
  Qed.
End small.
