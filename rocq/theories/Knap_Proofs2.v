(** * Knapsack branch and bound *)
From Coq Require Import ZArith QArith List Bool Lia Lqa Sorting.Permutation Sorting.Sorted.
From Verif Require Import Base Double_Model Double_Proofs Knap_Model Knap_Spec Knap_Proofs.
Import ListNotations.
Open Scope Z_scope.

Definition uv (S : list uitem) : Z := fold_right Z.add 0 (map uc_v S).
Definition uw (S : list uitem) : Z := fold_right Z.add 0 (map uc_w S).
Lemma uv_cons t S : uv (t :: S) = uc_v t + uv S. Proof. reflexivity. Qed.
Lemma uw_cons t S : uw (t :: S) = uc_w t + uw S. Proof. reflexivity. Qed.

Inductive sub {A} : list A -> list A -> Prop :=
| sub_nil : sub [] []
| sub_take x S l : sub S l -> sub (x :: S) (x :: l)
| sub_skip x S l : sub S l -> sub S (x :: l).

(** The sizes for which the theorem holds: no overflow or underflow, and small values. *)
Definition big : Z := 2 ^ 900.
Definition good (t : uitem) : Prop := 0 <= uc_v t <= 2 ^ 49 /\ 0 < uc_w t <= big.
Definition desc_ratio (a b : uitem) : Prop := (ratio b <= ratio a)%Q.

Lemma inj_le a b : a <= b -> (inject_Z a <= inject_Z b)%Q. Proof. rewrite Zle_Qle. auto. Qed.
Lemma inj_0 a : 0 <= a -> (0 <= inject_Z a)%Q. Proof. intros H. apply (inj_le 0), H. Qed.
Lemma inj_1 a : 1 <= a -> (1 <= inject_Z a)%Q. Proof. intros H. apply (inj_le 1), H. Qed.

Lemma p2_small a : (-1022 <= a)%Z -> (p2 (-1022) <= p2 a)%Q. Proof. intros H. apply p2_le, H. Qed.
Lemma eps_val : (eps == 1 # 9007199254740992)%Q. Proof. reflexivity. Qed.

(** Rounding a nonnegative integer. *)
Lemma fl_int n : 0 <= n -> ((1 - eps) * inject_Z n <= fl (inject_Z n))%Q /\ (fl (inject_Z n) <= (1 + eps) * inject_Z n)%Q.
Proof.
  intros H. apply fl_ok. destruct (Z.eq_dec n 0) as [->|N]; [left; reflexivity|right]. apply Qle_trans with (p2 0); [apply p2_le; lia|]. apply inj_1. lia.
Qed.

Lemma flt_ok n : 0 <= n <= 2 ^ 1000 -> flt n = Ret (fl (inject_Z n)).
Proof.
  intros H. unfold flt. destruct (Z.leb_spec (2 ^ 1024 - 2 ^ 970) (Z.abs n)) as [L|L]; [|reflexivity]. exfalso. rewrite Z.abs_eq in L by lia.
  assert (C : 2 ^ 1000 < 2 ^ 1024 - 2 ^ 970) by reflexivity. lia.
Qed.

(** The ratio: relative error at most 4 eps, and zero or not too small. *)
Lemma ratio_ok t : good t ->
  ((1 - 4 * eps) * inject_Z (uc_v t) <= ratio t * inject_Z (uc_w t))%Q /\ (ratio t * inject_Z (uc_w t) <= (1 + 4 * eps) * inject_Z (uc_v t))%Q /\
  ((ratio t == 0)%Q \/ (p2 (-910) <= ratio t)%Q) /\ (0 <= ratio t)%Q.
Proof.
  intros (Hv & Hw). unfold ratio. set (v := uc_v t) in *. set (w := uc_w t) in *. clearbody v w. destruct (fl_int v ltac:(lia)) as (V1 & V2). destruct (fl_int w ltac:(lia)) as (W1 & W2).
  set (a := fl (inject_Z v)) in *. set (b := fl (inject_Z w)) in *. pose proof eps_val as Ee. pose proof (inj_1 w ltac:(lia)) as w1. pose proof (inj_0 v ltac:(lia)) as v0. rewrite Ee in V1, V2, W1, W2.
  assert (Pb : (0 < b)%Q) by lra. assert (Eab : (a / b * b == a)%Q) by (field; lra).
  destruct (Z.eq_dec v 0) as [->|Nv].
  - assert (Z0 : (a == 0)%Q) by (change (inject_Z 0) with 0%Q in *; lra). assert (Zq : (a / b == 0)%Q) by (rewrite Z0; field; lra). destruct (fl_ok (a / b) (or_introl Zq)) as (F1 & F2). rewrite Ee in F1, F2. set (q := (a / b)%Q) in *. assert (F : (fl q == 0)%Q) by lra. rewrite F. change (inject_Z 0) with 0%Q. split; [lra|]. split; [lra|]. split; [left; reflexivity|lra].
  - pose proof (inj_1 v ltac:(lia)) as v1. assert (Wb : (inject_Z w <= p2 900)%Q) by (rewrite <- p2_Z by lia; apply inj_le; unfold big in Hw; lia).
    assert (P9 : (p2 901 == 2 * p2 900)%Q) by (change 901 with (1 + 900); rewrite p2_plus; reflexivity). assert (Bb : (b <= p2 901)%Q) by lra.
    assert (La : ((1#2) <= a)%Q) by lra.
    assert (Lq : (p2 (-902) <= a / b)%Q).
    { apply Qle_shift_div_l; [exact Pb|]. pose proof (p2_pos (-902)) as PP. apply Qle_trans with (p2 (-902) * p2 901)%Q; [rewrite !(Qmult_comm (p2 (-902))); apply Qmult_le_compat_r; lra|]. rewrite <- p2_plus. change (p2 (-902 + 901)) with (1#2)%Q. lra. }
    destruct (fl_ok (a / b)) as (F1 & F2); [right; apply Qle_trans with (p2 (-902)); [apply p2_le; lia|exact Lq]|].
    set (q := (a / b)%Q) in *. set (r := fl q) in *. clearbody q r. pose proof (p2_pos (-902)) as PP. assert (Pq : (0 < q)%Q) by lra.
    assert (R1 : ((1 - eps) * a <= r * b)%Q) by (rewrite <- Eab; rewrite Qmult_assoc; apply Qmult_le_compat_r; lra).
    assert (R2 : (r * b <= (1 + eps) * a)%Q) by (rewrite <- Eab; rewrite Qmult_assoc; apply Qmult_le_compat_r; lra).
    assert (Pr : (0 < r)%Q). { rewrite Ee in F1. lra. }
    assert (S1 : (r * ((1 - (1 # 9007199254740992)) * inject_Z w) <= r * b)%Q) by (rewrite !(Qmult_comm r); apply Qmult_le_compat_r; lra).
    assert (S2 : (r * b <= r * ((1 + (1 # 9007199254740992)) * inject_Z w))%Q) by (rewrite !(Qmult_comm r); apply Qmult_le_compat_r; lra).
    rewrite Ee in R1, R2. set (x := (r * inject_Z w)%Q). assert (X1 : ((1 - (1 # 9007199254740992)) * x <= (1 + (1 # 9007199254740992)) * a)%Q) by (unfold x; lra). assert (X2 : ((1 - (1 # 9007199254740992)) * a <= (1 + (1 # 9007199254740992)) * x)%Q) by (unfold x; lra).
    assert (Px : (0 < x)%Q) by (apply Qmult_lt_0_compat; lra). clearbody x. rewrite Ee in *. split; [lra|]. split; [lra|]. split; [|lra]. right. apply Qle_trans with (p2 (-903)); [apply p2_le; lia|]. change (-903) with (-1 + -902). rewrite p2_plus. change (p2 (-1)) with (1#2)%Q. lra.
Qed.

Lemma ratio_nonneg t : good t -> (0 <= ratio t)%Q. Proof. intros G. apply ratio_ok, G. Qed.

(** Values measured with the rounded ratios. *)
Fixpoint qv (S : list uitem) : Q := match S with [] => 0 | t :: S' => ratio t * inject_Z (uc_w t) + qv S' end%Q.

Lemma qv_bounds S : Forall good S -> ((1 - 4 * eps) * inject_Z (uv S) <= qv S)%Q /\ (qv S <= (1 + 4 * eps) * inject_Z (uv S))%Q.
Proof.
  induction 1 as [|t S G F (A & B)]; [change (uv []) with 0; cbn [qv]; change (inject_Z 0) with 0%Q; lra|]. rewrite uv_cons, inject_Z_plus. cbn [qv]. destruct (ratio_ok t G) as (R1 & R2 & _). lra.
Qed.

Lemma low_ratio u S l : sub S l -> Forall good l -> Forall (fun t => (ratio t <= u)%Q) l -> (qv S <= u * inject_Z (uw S))%Q.
Proof.
  induction 1 as [|x S l H IH|x S l H IH]; intros G F.
  - change (uw []) with 0. cbn [qv]. change (inject_Z 0) with 0%Q. lra.
  - inversion_clear G as [|? ? G1 G2]. inversion_clear F as [|? ? F1 F2]. specialize (IH G2 F2). rewrite uw_cons, inject_Z_plus. cbn [qv].
    pose proof (inj_0 (uc_w x) ltac:(destruct G1; lia)). assert (ratio x * inject_Z (uc_w x) <= u * inject_Z (uc_w x))%Q by (apply Qmult_le_compat_r; lra). lra.
  - inversion_clear G as [|? ? G1 G2]. inversion_clear F as [|? ? F1 F2]. auto.
Qed.
Lemma high_ratio u S l : sub S l -> Forall good l -> Forall (fun t => (u <= ratio t)%Q) l -> (qv S + u * inject_Z (uw l) <= qv l + u * inject_Z (uw S))%Q.
Proof.
  induction 1 as [|x S l H IH|x S l H IH]; intros G F.
  - lra.
  - inversion_clear G as [|? ? G1 G2]. inversion_clear F as [|? ? F1 F2]. specialize (IH G2 F2). rewrite !uw_cons, !inject_Z_plus. cbn [qv]. lra.
  - inversion_clear G as [|? ? G1 G2]. inversion_clear F as [|? ? F1 F2]. specialize (IH G2 F2). rewrite !uw_cons, !inject_Z_plus. cbn [qv].
    pose proof (inj_0 (uc_w x) ltac:(destruct G1; lia)). assert (u * inject_Z (uc_w x) <= ratio x * inject_Z (uc_w x))%Q by (apply Qmult_le_compat_r; lra). lra.
Qed.

Lemma sub_value S l : sub S l -> Forall good l -> 0 <= uv S <= uv l.
Proof.
  induction 1 as [|x S l H IH|x S l H IH]; intros G; [cbn; lia| |]; inversion_clear G as [|? ? G1 G2]; specialize (IH G2);
    rewrite ?uv_cons; destruct G1; lia.
Qed.
Lemma sub_weight S l : sub S l -> Forall good l -> 0 <= uw S.
Proof.
  induction 1 as [|x S l H IH|x S l H IH]; intros G; [cbn; lia| |]; inversion_clear G as [|? ? G1 G2]; specialize (IH G2);
    rewrite ?uw_cons; destruct G1; lia.
Qed.
Lemma sub_refl {A} (l : list A) : sub l l. Proof. induction l; constructor; assumption. Qed.
Lemma sub_nil_l {A} (l : list A) : sub [] l. Proof. induction l; constructor; assumption. Qed.
Lemma sub_app_inv {A} (l1 l2 : list A) : forall S, sub S (l1 ++ l2) -> exists S1 S2, S = S1 ++ S2 /\ sub S1 l1 /\ sub S2 l2.
Proof.
  induction l1 as [|x l1 IH]; intros S H; [exists [], S; split; [reflexivity|split; [constructor|exact H]]|]. inversion H as [|? S' ? H'|? ? ? H']; subst; destruct (IH _ H') as (S1 & S2 & -> & X & Y).
  - exists (x :: S1), S2. split; [reflexivity|]. split; [constructor; exact X|exact Y].
  - exists S1, S2. split; [reflexivity|]. split; [constructor; exact X|exact Y].
Qed.
Lemma uw_app S1 S2 : uw (S1 ++ S2) = uw S1 + uw S2.
Proof. induction S1 as [|x S IH]; [reflexivity|]. cbn [app]. rewrite !uw_cons, IH. ring. Qed.
Lemma qv_app S1 S2 : (qv (S1 ++ S2) == qv S1 + qv S2)%Q.
Proof. induction S1 as [|x S IH]; cbn [app qv]; [ring|]. rewrite IH. ring. Qed.

(** The loop takes a prefix; the ratio it ends with separates the prefix from the rest. *)
Lemma bound_loop_ok : forall rest target value weight u, Forall good rest -> StronglySorted desc_ratio rest -> weight <= target -> rest <> [] ->
  exists G R u', rest = G ++ R /\ bound_loop rest target value weight u = (value + uv G, weight + uw G, u') /\ weight + uw G <= target /\
    (exists x, In x rest /\ u' = ratio x) /\ Forall (fun t => (u' <= ratio t)%Q) G /\ Forall (fun t => (ratio t <= u')%Q) R.
Proof.
  induction rest as [|t rest IH]; intros target value weight u G D Hw N; [congruence|]. cbn [bound_loop]. inversion_clear G as [|? ? G1 G2]. inversion_clear D as [|? ? D1 D2].
  destruct (Z.gtb_spec (weight + uc_w t) target) as [H|H].
  - exists [], (t :: rest), (ratio t). split; [reflexivity|]. change (uv []) with 0. change (uw []) with 0. rewrite !Z.add_0_r. split; [reflexivity|]. split; [exact Hw|]. split; [exists t; split; [left; reflexivity|reflexivity]|]. split; [constructor|]. constructor; [lra|exact D2].
  - destruct rest as [|t' rest'].
    + exists [t], [], (ratio t). split; [reflexivity|]. cbn [bound_loop]. rewrite uv_cons, uw_cons. change (uv []) with 0. change (uw []) with 0. rewrite !Z.add_0_r. split; [reflexivity|]. split; [exact H|]. split; [exists t; split; [left; reflexivity|reflexivity]|]. split; [constructor; [lra|constructor]|constructor].
    + destruct (IH target (value + uc_v t) (weight + uc_w t) (ratio t) G2 D1 H ltac:(discriminate)) as (Gs & R & u' & E & L & W & (x & Hx & Ux) & A & B).
      exists (t :: Gs), R, u'. split; [cbn [app]; rewrite E; reflexivity|]. rewrite uv_cons, uw_cons, !Z.add_assoc. split; [exact L|]. split; [exact W|]. split; [exists x; split; [right; exact Hx|exact Ux]|]. split; [|exact B].
      constructor; [|exact A]. rewrite Forall_forall in D2. specialize (D2 x Hx). rewrite Ux. exact D2.
Qed.

Lemma fl_mono0 q : (0 <= q)%Q -> (q == 0)%Q \/ (p2 (-1022) <= q)%Q -> (0 <= fl q)%Q.
Proof. intros H H'. destruct (fl_ok q H') as (A & _). pose proof eps_val as E. rewrite E in A. lra. Qed.

(** The computed bound is nearly as large as the value of every completion. *)
Lemma bb_bound_ok rest cv target : Forall good rest -> StronglySorted desc_ratio rest -> rest <> [] -> 0 <= cv <= 2 ^ 49 -> 0 <= target <= big -> uv rest <= 2 ^ 49 ->
  exists b, bb_bound rest cv target = Ret b /\ forall S, sub S rest -> uw S <= target -> ((1 - eps) * ((1 - eps) * ((1 - eps) * ((1 - eps) * ((1 - 4 * eps) * inject_Z (cv + uv S))))) <= (1 + 4 * eps) * b)%Q.
Proof.
  intros G D N Hcv Ht Hu. unfold bb_bound, optimistic_bound. destruct (bound_loop_ok rest target 0 0 0%Q G D ltac:(lia) N) as (Gs & R & u & E & L & W & (x & Hx & Ux) & A & B).
  rewrite L. cbn [fst snd]. rewrite !Z.add_0_l in *. assert (GG : Forall good Gs) by (rewrite E in G; apply Forall_app in G; apply G). assert (GR : Forall good R) by (rewrite E in G; apply Forall_app in G; apply G).
  pose proof (sub_weight Gs Gs (sub_refl _) GG) as W0. pose proof (sub_value Gs Gs (sub_refl _) GG) as V0. assert (VG : uv Gs <= uv rest).
  { apply (sub_value Gs rest); [|exact G]. rewrite E. clear. induction Gs as [|y Gs IH]; [apply sub_nil_l|]. cbn [app]. constructor. exact IH. }
  assert (Big : big <= 2 ^ 1000) by (unfold big; apply Z.pow_le_mono_r; lia). assert (B49 : 2 ^ 49 <= 2 ^ 1000) by (apply Z.pow_le_mono_r; lia).
  rewrite flt_ok by lia. cbn [bind]. rewrite flt_ok by lia. cbn [bind]. rewrite flt_ok by lia. cbn [bind]. eexists. split; [reflexivity|]. intros S HS HW.
  assert (Gx : good x) by (rewrite Forall_forall in G; apply G, Hx). destruct (ratio_ok x Gx) as (_ & _ & Rx & Ru). rewrite <- Ux in Rx, Ru.
  rewrite E in HS. destruct (sub_app_inv Gs R S HS) as (S1 & S2 & -> & H1 & H2). pose proof (high_ratio u S1 Gs H1 GG A) as X1. pose proof (low_ratio u S2 R H2 GR B) as X2.
  assert (GS : Forall good (S1 ++ S2)).
  { rewrite Forall_forall in *. intros y Hy. assert (Y : In y (Gs ++ R)); [|rewrite <- E in Y; apply G; exact Y]. clear - HS Hy. revert HS Hy. generalize (S1 ++ S2) as S. generalize (Gs ++ R) as l. intros l S H. induction H; intros Hy; [exact Hy| |right; auto]. destruct Hy as [->|Hy]; [left; reflexivity|right; auto]. }
  destruct (qv_bounds _ GS) as (Y1 & _). destruct (qv_bounds _ GG) as (_ & Y2). rewrite qv_app in Y1. rewrite uw_app in HW.
  assert (X3 : (u * inject_Z (uw S1 + uw S2) <= u * inject_Z target)%Q) by (rewrite !(Qmult_comm u); apply Qmult_le_compat_r; [apply inj_le; exact HW|exact Ru]). rewrite inject_Z_plus in X3.
  set (d := target - uw Gs) in *. assert (Ed : (inject_Z d == inject_Z target - inject_Z (uw Gs))%Q) by (unfold d, Z.sub; rewrite inject_Z_plus, inject_Z_opp; ring).
  set (s := inject_Z (uv (S1 ++ S2))) in *. set (val := inject_Z (uv Gs)) in *. set (k := inject_Z d) in *.
  assert (M : ((1 - 4 * eps) * s <= (1 + 4 * eps) * val + u * k)%Q) by (rewrite Ed; lra).
  assert (Hd : 0 <= d) by (unfold d; lia). destruct (fl_int d Hd) as (K1 & K2). fold k in K1, K2. pose proof (inj_0 d Hd) as k0. fold k in k0. pose proof eps_val as Ee.
  destruct (fl_int (uv Gs) ltac:(lia)) as (A1 & A2). fold val in A1, A2. pose proof (inj_0 (uv Gs) ltac:(lia)) as val0. fold val in val0. destruct (fl_int cv ltac:(lia)) as (C1 & C2). pose proof (inj_0 cv ltac:(lia)) as c0. rewrite inject_Z_plus. fold s. set (c := inject_Z cv) in *.
  assert (AV : (fl val == 0)%Q \/ ((1#2) <= fl val)%Q).
  { destruct (Z.eq_dec (uv Gs) 0) as [Z0|Z0]; [left; unfold val in *; rewrite Z0 in *; change (inject_Z 0) with 0%Q in *; lra|right]. pose proof (inj_1 (uv Gs) ltac:(lia)) as o. fold val in o. rewrite Ee in A1. lra. }
  assert (CV : (fl c == 0)%Q \/ ((1#2) <= fl c)%Q).
  { destruct (Z.eq_dec cv 0) as [Z0|Z0]; [left; unfold c in *; rewrite Z0 in *; change (inject_Z 0) with 0%Q in *; lra|right]. pose proof (inj_1 cv ltac:(lia)) as o. fold c in o. rewrite Ee in C1. lra. }
  assert (KV : (fl k == 0)%Q \/ ((1#2) <= fl k)%Q).
  { destruct (Z.eq_dec d 0) as [Z0|Z0]; [left; unfold k in *; rewrite Z0 in *; change (inject_Z 0) with 0%Q in *; lra|right]. pose proof (inj_1 d ltac:(lia)) as o. fold k in o. rewrite Ee in K1. lra. }
  set (a' := fl val) in *. set (c' := fl c) in *. set (k' := fl k) in *. clearbody a' c' k' val c k s. clear - M K1 K2 k0 Ee A1 A2 val0 C1 C2 c0 AV CV KV Rx Ru.
  pose proof (p2_pos (-910)) as P9. pose proof (p2_pos (-920)) as P92. assert (Hhalf : (p2 (-911) == (1#2) * p2 (-910))%Q) by (change (-911) with (-1 + -910); rewrite p2_plus; reflexivity).
  assert (P911 : (p2 (-1022) <= p2 (-920))%Q) by (apply p2_le; lia). assert (P911' : (p2 (-920) * 2 <= p2 (-911))%Q) by (apply Qle_trans with (p2 (-919)); [change (-919) with (-920 + 1); rewrite p2_plus; change (p2 1) with (2#1)%Q; lra|apply p2_le; lia]).
  assert (Phalf : (p2 (-911) <= 1#2)%Q) by (change (1#2)%Q with (p2 (-1)); apply p2_le; lia).
  (* the product *)
  assert (T1 : (u * k' == 0)%Q \/ (p2 (-911) <= u * k')%Q).
  { destruct Rx as [Z0|Rx]; [left; rewrite Z0; ring|]. destruct KV as [Z0|KV]; [left; rewrite Z0; ring|right]. rewrite Hhalf. apply Qle_trans with (u * (1#2))%Q; [lra|]. rewrite !(Qmult_comm u). apply Qmult_le_compat_r; lra. }
  destruct (fl_ok (u * k')) as (F1 & F2); [destruct T1; [left; assumption|right; lra]|]. assert (Uk : ((1 - eps) * (u * k) <= u * k')%Q). { setoid_replace ((1 - eps) * (u * k))%Q with ((1 - eps) * k * u)%Q by ring. rewrite (Qmult_comm u k'). apply Qmult_le_compat_r; lra. }
  assert (Uk0 : (0 <= u * k)%Q) by (apply Qmult_le_0_compat; assumption). set (x := (u * k)%Q) in *. set (y := (u * k')%Q) in *. set (f1 := fl y) in *.
  assert (T2 : (f1 == 0)%Q \/ (p2 (-920) <= f1)%Q) by (destruct T1 as [T1|T1]; [left; rewrite T1 in F1, F2; lra|right; rewrite Ee in F1; lra]).
  assert (T3 : (a' + f1 == 0)%Q \/ (p2 (-920) <= a' + f1)%Q) by (destruct AV as [AV|AV], T2 as [T2|T2]; [left|right|right|right]; lra).
  clearbody x y f1. destruct (fl_ok (a' + f1)) as (G1 & G2); [destruct T3; [left; assumption|right; lra]|]. set (f2 := fl (a' + f1)) in *.
  assert (P93 : (p2 (-920) == 2 * p2 (-921))%Q) by (change (-920) with (1 + -921); rewrite p2_plus; reflexivity). assert (P1022 : (p2 (-1022) <= p2 (-921))%Q) by (apply p2_le; lia). assert (Ph2 : (p2 (-921) <= 1#2)%Q) by (change (1#2)%Q with (p2 (-1)); apply p2_le; lia).
  assert (T4 : (f2 == 0)%Q \/ (p2 (-921) <= f2)%Q) by (destruct T3 as [T3|T3]; [left; rewrite T3 in G1, G2; lra|right; rewrite Ee in G1; lra]).
  assert (T5 : (c' + f2 == 0)%Q \/ (p2 (-921) <= c' + f2)%Q) by (destruct CV as [CV|CV], T4 as [T4|T4]; [left|right|right|right]; lra).
  clearbody f2. destruct (fl_ok (c' + f2)) as (H1 & H2); [destruct T5; [left; assumption|right; lra]|]. set (f3 := fl (c' + f2)) in *. clearbody f3.
  clear - M Ee A1 C1 val0 c0 Uk0 Uk F1 G1 H1. rewrite Ee in *. lra.
Qed.

(** A bound that does not exceed the best value rules out improvement. *)
Lemma bound_prunes N best b : N <= 2 ^ 49 -> 0 <= best -> ((1 - eps) * ((1 - eps) * ((1 - eps) * ((1 - eps) * ((1 - 4 * eps) * inject_Z N)))) <= (1 + 4 * eps) * b)%Q -> (b <= inject_Z best)%Q -> N <= best.
Proof.
  intros HN Hb H1 H2. destruct (Z_lt_le_dec best N) as [L|L]; [exfalso|exact L]. assert (A : (inject_Z best + inject_Z 1 <= inject_Z N)%Q) by (rewrite <- (inject_Z_plus best 1); apply inj_le; lia). change (inject_Z 1) with 1%Q in A.
  apply inj_le in HN. change (inject_Z (2 ^ 49)) with (562949953421312#1)%Q in HN. pose proof (inj_0 best Hb). pose proof eps_val as E. rewrite E in H1. lra.
Qed.

Lemma bb_backtrack_ok cap : 0 <= cap <= big -> forall rest cv cw used best, Forall good rest -> StronglySorted desc_ratio rest -> 0 <= cv -> 0 <= cw -> cv + uv rest <= 2 ^ 49 -> 0 <= fst best ->
  exists r, bb_backtrack cap rest cv cw used best = Ret r /\
  fst best <= fst r /\
  (forall S, sub S rest -> cw + uw S <= cap -> cv + uv S <= fst r) /\
  (r = best \/ exists S, sub S rest /\ cw + uw S <= cap /\ r = (cv + uv S, used ++ S)).
Proof.
  intros Hcap. induction rest as [|t rest IH]; intros cv cw used best G D Hcv Hcw Htot Hbest; cbn [bb_backtrack]; destruct (Z.leb_spec cw cap) as [Hc|Hc].
  - eexists. split; [reflexivity|]. destruct (Z.gtb_spec cv (fst best)) as [H|H]; cbn [fst].
    + split; [lia|]. split.
      * intros S HS _. inversion HS; subst. cbn. lia.
      * right. exists []. split; [constructor|]. cbn. rewrite app_nil_r, !Z.add_0_r. split; [exact Hc|reflexivity].
    + split; [lia|]. split; [|left; reflexivity]. intros S HS _. inversion HS; subst. cbn. lia.
  - eexists. split; [reflexivity|]. split; [lia|]. split; [|left; reflexivity]. intros S HS. inversion HS; subst. cbn. lia.
  - assert (G' := G). inversion_clear G' as [|? ? G1 G2]. assert (D' := D). inversion_clear D' as [|? ? D1 D2]. rewrite uv_cons in Htot.
    pose proof (sub_value rest rest (sub_refl _) G2) as VR. assert (Vt : 0 <= uc_v t) by (destruct G1; lia). assert (Wt : 0 < uc_w t) by (destruct G1; lia).
    set (b0 := if cv >? fst best then (cv, used) else best).
    assert (B0 : fst best <= fst b0 /\ cv <= fst b0 /\ (b0 = best \/ b0 = (cv, used))).
    { unfold b0. destruct (Z.gtb_spec cv (fst best)); cbn [fst]; repeat split; auto; lia. }
    destruct B0 as (B0 & B0' & B0e). clearbody b0.
    destruct (bb_bound_ok (t :: rest) cv (cap - cw) G D ltac:(discriminate) ltac:(lia) ltac:(lia) ltac:(rewrite uv_cons; lia)) as (bound & Eb & BD). rewrite Eb. cbn [bind].
    (* P b: b dominates b0 and is b0 or a completion *)
    set (P := fun b : Z * list uitem => fst b0 <= fst b /\ (b = b0 \/ exists S, sub S (t :: rest) /\ cw + uw S <= cap /\ b = (cv + uv S, used ++ S))).
    assert (Q : forall b, P b -> (forall S, sub S (t :: rest) -> cw + uw S <= cap -> cv + uv S <= fst b) ->
      fst best <= fst b /\ (forall S, sub S (t :: rest) -> cw + uw S <= cap -> cv + uv S <= fst b) /\
      (b = best \/ exists S, sub S (t :: rest) /\ cw + uw S <= cap /\ b = (cv + uv S, used ++ S))).
    { intros b (P1 & P2) H. split; [lia|]. split; [exact H|]. destruct P2 as [-> |P2]; [|right; exact P2].
      destruct B0e as [-> | ->]; [left; reflexivity|right]. exists []. split; [apply sub_nil_l|].
      cbn. rewrite app_nil_r, !Z.add_0_r. split; [exact Hc|reflexivity]. }
    assert (PR : forall b : Z * list uitem, 0 <= fst b -> Qle_bool bound (inject_Z (fst b)) = true -> forall S, sub S (t :: rest) -> cw + uw S <= cap -> cv + uv S <= fst b).
    { intros b Pb E S HS HW. apply Qle_bool_iff in E. apply (bound_prunes _ _ bound); [|exact Pb| |exact E].
      - pose proof (sub_value S (t :: rest) HS G) as VS. rewrite uv_cons in VS. lia.
      - apply BD; [exact HS|lia]. }
    assert (SK : forall b, P b -> (forall S, sub S rest -> cw + uc_w t + uw S <= cap -> cv + uc_v t + uv S <= fst b) ->
      exists r, (if Qle_bool bound (inject_Z (fst b)) then Ret b else bb_backtrack cap rest cv cw used b) = Ret r /\
      P r /\ forall S, sub S (t :: rest) -> cw + uw S <= cap -> cv + uv S <= fst r).
    { intros b Pb Hb. assert (Nb : 0 <= fst b) by (destruct Pb; lia). destruct (Qle_bool bound (inject_Z (fst b))) eqn:E; [exists b; split; [reflexivity|]; split; [exact Pb|apply PR; assumption]|].
      destruct (IH cv cw used b G2 D1 Hcv Hcw ltac:(lia) Nb) as (r & Er & A2 & B2 & C2). exists r. split; [exact Er|]. destruct Pb as (P1 & P2). split; [split; [lia|]|].
      - destruct C2 as [-> |(S & HS & HW & C2)]; [exact P2|right]. exists S. split; [constructor; exact HS|]. split; [exact HW|exact C2].
      - intros S HS HW. inversion HS as [|? S' ? HS'|? ? ? HS']; subst.
        + rewrite uw_cons, uv_cons in *. specialize (Hb S' HS'). lia.
        + apply B2; assumption. }
    assert (P0 : P b0) by (split; [lia|left; reflexivity]).
    destruct (Z.leb_spec (cw + uc_w t) cap) as [Hw|Hw].
    + destruct (Qle_bool bound (inject_Z (fst b0))) eqn:E; [exists b0; split; [reflexivity|]; apply Q; [exact P0|apply PR; [lia|exact E]]|].
      destruct (IH (cv + uc_v t) (cw + uc_w t) (used ++ [t]) b0 G2 D1 ltac:(lia) ltac:(lia) ltac:(lia) ltac:(lia)) as (b1 & E1 & A1 & B1 & C1). rewrite E1. cbn [bind].
      assert (P1 : P b1).
      { split; [exact A1|]. destruct C1 as [-> |(S & HS & HW & C1)]; [left; reflexivity|right].
        exists (t :: S). split; [constructor; exact HS|]. rewrite uw_cons, uv_cons. split; [lia|].
        rewrite C1, <- app_assoc. cbn [app]. f_equal. lia. }
      destruct (SK b1 P1 B1) as (r & Er & X & Y). exists r. split; [exact Er|]. apply Q; assumption.
    + destruct (SK b0 P0) as (r & Er & X & Y); [|exists r; split; [exact Er|]; apply Q; assumption].
      intros S HS HW. pose proof (sub_weight _ _ HS G2). lia.
  - eexists. split; [reflexivity|]. split; [lia|]. split; [|left; reflexivity]. intros S HS HW. exfalso. pose proof (sub_weight _ _ HS G). lia.
Qed.

(** ** Sorting *)
Lemma uc_insert_perm x l : Permutation (uc_insert x l) (x :: l).
Proof. induction l as [|y l IH]; cbn [uc_insert]; [reflexivity|]. destruct (uc_geb x y); [reflexivity|]. rewrite IH. apply perm_swap. Qed.
Lemma uc_sort_perm l : Permutation (uc_sort l) l.
Proof. induction l as [|x l IH]; [constructor|]. cbn [uc_sort fold_right]. rewrite uc_insert_perm. constructor. exact IH. Qed.

Lemma uc_geb_true a b : uc_geb a b = true -> desc_ratio a b.
Proof.
  unfold uc_geb, desc_ratio. destruct (Qeq_bool (ratio a) (ratio b)) eqn:E.
  - intros _. apply Qeq_bool_iff in E. lra.
  - intros H. apply Qle_bool_iff in H. exact H.
Qed.
Lemma uc_geb_false a b : uc_geb a b = false -> desc_ratio b a.
Proof.
  unfold uc_geb, desc_ratio. destruct (Qeq_bool (ratio a) (ratio b)) eqn:E.
  - intros _. apply Qeq_bool_iff in E. lra.
  - intros H. destruct (Qlt_le_dec (ratio a) (ratio b)) as [L|L]; [apply Qlt_le_weak, L|].
    apply Qle_bool_iff in L. congruence.
Qed.

Lemma uc_sort_sorted l : StronglySorted desc_ratio (uc_sort l).
Proof.
  induction l as [|x l IH]; [constructor|]. cbn [uc_sort fold_right]. fold (uc_sort l).
  induction IH as [|y r S IH F]; cbn [uc_insert]; [constructor; constructor|].
  destruct (uc_geb x y) eqn:E.
  - apply uc_geb_true in E. constructor; [constructor; assumption|]. constructor; [exact E|].
    rewrite Forall_forall in *. intros z Hz. unfold desc_ratio in *. specialize (F z Hz). lra.
  - constructor; [exact IH|]. rewrite Forall_forall in *. intros z Hz. apply (Permutation_in z (uc_insert_perm x r)) in Hz.
    destruct Hz as [<-|Hz]; [apply uc_geb_false, E|auto].
Qed.

Lemma sub_perm {A} (S l : list A) : sub S l -> forall l', Permutation l l' -> exists S', Permutation S S' /\ sub S' l'.
Proof.
  intros HS l' P. revert S HS. induction P as [|x l l' P IH|x y l|l l' l'' P1 IH1 P2 IH2]; intros S HS.
  - exists S. split; [reflexivity|exact HS].
  - inversion HS as [|? S0 ? HS'|? ? ? HS']; subst; destruct (IH _ HS') as (S' & PS & H').
    + exists (x :: S'). split; [constructor; exact PS|constructor; exact H'].
    + exists S'. split; [exact PS|constructor; exact H'].
  - inversion HS as [|? S0 ? HS'|? ? ? HS']; subst; inversion HS' as [|? S1 ? HS''|? ? ? HS'']; subst.
    + exists (x :: y :: S1). split; [apply perm_swap|]. repeat constructor. exact HS''.
    + exists (y :: S0). split; [reflexivity|]. repeat constructor. exact HS''.
    + exists (x :: S1). split; [reflexivity|]. repeat constructor. exact HS''.
    + exists S. split; [reflexivity|]. repeat constructor. exact HS''.
  - destruct (IH1 S HS) as (S1 & PS1 & H1). destruct (IH2 S1 H1) as (S2 & PS2 & H2). exists S2.
    split; [rewrite PS1; exact PS2|exact H2].
Qed.

Lemma uv_perm S T : Permutation S T -> uv S = uv T.
Proof. induction 1; rewrite ?uv_cons; lia. Qed.
Lemma uw_perm S T : Permutation S T -> uw S = uw T.
Proof. induction 1; rewrite ?uw_cons; lia. Qed.

Lemma enum_sub i items S : selection S items -> exists U, sub U (uc_enum i items) /\ map fst U = S.
Proof.
  intros H. revert i. induction H as [|x S l H IH|x S l H IH]; intros i.
  - exists []. split; [constructor|reflexivity].
  - destruct (IH (i + 1)) as (U & HU & E). destruct x as [v w]. exists ((v, w, i) :: U). split; [constructor; exact HU|].
    cbn [map fst]. rewrite E. reflexivity.
  - destruct (IH (i + 1)) as (U & HU & E). destruct x as [v w]. exists U. split; [constructor; exact HU|exact E].
Qed.

Lemma sub_enum i items : forall U, sub U (uc_enum i items) -> selection (map fst U) items.
Proof.
  revert i. induction items as [|[v w] items IH]; intros i U H; cbn [uc_enum] in H.
  - inversion H; subst. constructor.
  - inversion H as [|? U' ? H'|? ? ? H']; subst; cbn [map fst]; constructor; eapply IH; eassumption.
Qed.

Lemma tv_map U : total_value (map fst U) = uv U.
Proof. induction U as [|t U IH]; [reflexivity|]. cbn [map]. rewrite tv_cons, uv_cons, IH. reflexivity. Qed.
Lemma tw_map U : total_weight (map fst U) = uw U.
Proof. induction U as [|t U IH]; [reflexivity|]. cbn [map]. rewrite tw_cons, uw_cons, IH. reflexivity. Qed.

Lemma sub_In {A} (S l : list A) x : sub S l -> In x S -> In x l.
Proof. induction 1 as [|y S l H IH|y S l H IH]; cbn [In]; tauto. Qed.
Lemma sub_NoDup {A} (S l : list A) : sub S l -> NoDup l -> NoDup S.
Proof.
  induction 1 as [|y S l H IH|y S l H IH]; intros N; [constructor| |]; inversion_clear N as [|? ? N1 N2]; [|auto].
  constructor; [|auto]. intros Hy. apply N1. eapply sub_In; eassumption.
Qed.

Lemma uc_enum_In i items t : In t (uc_enum i items) <-> exists k, nth_error items k = Some (fst t) /\ uc_i t = i + Z.of_nat k.
Proof.
  revert i. induction items as [|[v w] items IH]; intros i; cbn [uc_enum In].
  - split; [intros []|]. intros ([|k] & H & _); discriminate H.
  - rewrite IH. split.
    + intros [<-|(k & H & E)]; [exists O; split; [reflexivity|cbn; lia]|]. exists (S k). split; [exact H|]. lia.
    + intros ([|k] & H & E).
      * left. destruct t as [[a b] c]. cbn in *. injection H as -> ->. f_equal. lia.
      * right. exists k. split; [exact H|]. lia.
Qed.

Lemma uc_enum_idx i items : map uc_i (uc_enum i items) = zrange i (i + Z.of_nat (length items)).
Proof.
  revert i. induction items as [|[v w] items IH]; intros i; cbn [uc_enum map length].
  - rewrite zrange_nil by lia. reflexivity.
  - rewrite (zrange_cons i) by lia. rewrite IH. cbn [uc_i snd]. f_equal. f_equal. lia.
Qed.

(** The items returned are marked with their positions in the input. *)
Lemma total_value_in items it : Forall (fun it => 0 <= fst it) items -> In it items -> fst it <= total_value items.
Proof.
  intros F. induction F as [|x l H F IH]; intros Hi; [destruct Hi|]. change (total_value (x :: l)) with (fst x + total_value l). assert (0 <= total_value l) by (clear - F; induction F as [|y r H F IH]; [cbn; lia|]; change (total_value (y :: r)) with (fst y + total_value r); lia). destruct Hi as [->|Hi]; [lia|]. specialize (IH Hi). lia.
Qed.

Lemma uc_check_ok items : Forall (fun it => 0 <= fst it <= 2 ^ 49 /\ 0 < snd it <= big) items -> uc_check items = Ret tt.
Proof.
  intros F. unfold uc_check. induction F as [|x l H F IH]; [reflexivity|]. cbn [foldM]. assert (Big : big <= 2 ^ 1000) by (unfold big; apply Z.pow_le_mono_r; lia). assert (B49 : 2 ^ 49 <= 2 ^ 1000) by (apply Z.pow_le_mono_r; lia).
  rewrite flt_ok by lia. cbn [bind]. rewrite flt_ok by lia. cbn [bind]. destruct (fl_int (snd x) ltac:(lia)) as (A & _). pose proof (inj_1 (snd x) ltac:(lia)) as o. pose proof eps_val as Ee. rewrite Ee in A.
  destruct (Qeq_bool (fl (inject_Z (snd x))) 0) eqn:E; [apply Qeq_bool_iff in E; lra|]. cbn [bind]. exact IH.
Qed.

Lemma knap_branch_and_bound_ok items cap : Forall (fun it => 0 <= fst it /\ 0 < snd it <= 2 ^ 900) items -> 0 <= cap <= 2 ^ 900 -> total_value items <= 2 ^ 49 ->
  exists S used, knap_branch_and_bound items cap = Ret (total_value S, used) /\ Permutation (map fst used) S /\ optimal items cap S /\
    NoDup (map uc_i used) /\ (forall t, In t used -> 0 <= uc_i t /\ nth_error items (Z.to_nat (uc_i t)) = Some (fst t)).
Proof.
  intros F Hc Htv. assert (F49 : Forall (fun it => 0 <= fst it <= 2 ^ 49 /\ 0 < snd it <= big) items).
  { rewrite Forall_forall in *. intros it Hit. pose proof (F it Hit) as X. split; [|apply X]. split; [apply X|]. apply Z.le_trans with (total_value items); [|exact Htv]. apply total_value_in; [|exact Hit]. apply Forall_forall. intros y Hy. apply F, Hy. }
  clear F. rename F49 into F. unfold knap_branch_and_bound. rewrite uc_check_ok by exact F. cbn [bind].
  set (U := uc_enum 0 items). pose proof (uc_sort_perm U) as P. pose proof (uc_sort_sorted U) as D.
  assert (G : Forall good (uc_sort U)).
  { rewrite Forall_forall in *. intros t Ht. apply (Permutation_in t P) in Ht. apply uc_enum_In in Ht as (k & Hk & _).
    apply nth_error_In in Hk. apply F in Hk. exact Hk. }
  assert (NI : NoDup (map uc_i (uc_sort U))).
  { eapply Permutation_NoDup; [apply Permutation_map, Permutation_sym, P|]. unfold U. rewrite uc_enum_idx. apply zrange_NoDup. }
  assert (sub_map : forall (S l : list uitem), sub S l -> sub (map uc_i S) (map uc_i l)).
  { induction 1; cbn [map]; constructor; assumption. }
  assert (Huv : uv (uc_sort U) <= 2 ^ 49).
  { rewrite (uv_perm _ _ P). unfold U. assert (X : forall i l, uv (uc_enum i l) = total_value l); [|rewrite X; exact Htv]. clear. intros i l. revert i. induction l as [|[v w] l IH]; intros i; [reflexivity|]. cbn [uc_enum]. rewrite uv_cons, IH. reflexivity. }
  destruct (bb_backtrack_ok cap Hc (uc_sort U) 0 0 [] (0, []) G D ltac:(lia) ltac:(lia) ltac:(lia) ltac:(cbn; lia)) as (r & Er & A & B & C). rewrite Er.
  assert (OPT : forall S', selection S' items -> total_weight S' <= cap -> total_value S' <= fst r).
  { intros S' H1 H2. destruct (enum_sub 0 items S' H1) as (V & HV & E). destruct (sub_perm V U HV (uc_sort U) (Permutation_sym P)) as (V' & PV & HV').
    specialize (B V' HV'). rewrite <- E, tv_map, (uv_perm _ _ PV). rewrite <- E, tw_map, (uw_perm _ _ PV) in H2. lia. }
  destruct C as [C|(S & HS & HW & C)]; subst r.
  - exists [], []. split; [reflexivity|]. split; [constructor|]. split; [|split; [constructor|intros t []]].
    split; [apply selection_nil|]. split; [rewrite tw_nil; lia|exact OPT].
  - cbn [app] in *. destruct (sub_perm S (uc_sort U) HS U P) as (S' & PS & HS').
    exists (map fst S'), S. split; [rewrite tv_map, <- (uv_perm _ _ PS); reflexivity|].
    split; [apply Permutation_map, PS|]. split; [|split].
    + split; [apply (sub_enum 0), HS'|]. split; [rewrite tw_map, <- (uw_perm _ _ PS); lia|].
      intros S'' H1 H2. rewrite tv_map, <- (uv_perm _ _ PS). specialize (OPT S'' H1 H2). cbn [fst] in OPT. lia.
    + eapply sub_NoDup; [apply sub_map, HS|exact NI].
    + intros t Ht. apply (sub_In _ _ _ HS) in Ht. apply (Permutation_in t P) in Ht. apply uc_enum_In in Ht as (k & Hk & E).
      split; [lia|]. rewrite E. replace (Z.to_nat (0 + Z.of_nat k)) with k by lia. exact Hk.
Qed.

Lemma flt_small n : Z.abs n < 2 ^ 1023 -> flt n = Ret (fl (inject_Z n)).
Proof.
  intros H. unfold flt. destruct (Z.leb_spec (2 ^ 1024 - 2 ^ 970) (Z.abs n)) as [L|L]; [|reflexivity]. exfalso. assert (C : 2 ^ 1023 < 2 ^ 1024 - 2 ^ 970) by reflexivity. lia.
Qed.

Lemma zero_weight_ok items cap : Forall (fun it => Z.abs (fst it) < 2 ^ 1023 /\ Z.abs (snd it) < 2 ^ 1023) items -> (exists v, In (v, 0) items) ->
  knap_branch_and_bound items cap = Raise ZeroDivisionError.
Proof.
  intros F (v & Hv). unfold knap_branch_and_bound. assert (E : uc_check items = Raise ZeroDivisionError); [|rewrite E; reflexivity]. unfold uc_check.
  induction F as [|[a b] l (Ha & Hb) F IH]; [destruct Hv|]. cbn [foldM fst snd] in *. rewrite flt_small by exact Ha. cbn [bind]. rewrite flt_small by exact Hb. cbn [bind].
  destruct (Qeq_bool (fl (inject_Z b)) 0) eqn:E; [reflexivity|]. cbn [bind]. destruct Hv as [Hv|Hv]; [|apply IH, Hv]. injection Hv as -> ->. discriminate E.
Qed.
