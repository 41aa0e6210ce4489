(** * Proofs about fermat, lehman, Pollard's p-1 and rho *)
From Coq Require Import ZArith List Bool Lia Znumtheory.
From Verif Require Import Base Py Loop Core_Model Core_Proofs Core_Props NT_Euler Float2_Proofs Find_Model.
Import ListNotations.
Open Scope Z_scope.

(** ** Search loops *)
Lemma first_some_spec {A B} (f : A -> outcome (option B)) (P : A -> option B -> Prop) l : (forall x, In x l -> exists r, f x = Ret r /\ P x r) ->
  exists r, first_some f l = Ret r /\
    match r with
    | Some y => exists l1 x l2, l = l1 ++ x :: l2 /\ P x (Some y) /\ forall z, In z l1 -> P z None
    | None => forall x, In x l -> P x None
    end.
Proof.
  induction l as [|x l IH]; intros H; cbn [first_some]; [exists None; split; [reflexivity|intros x []]|].
  destruct (H x (or_introl eq_refl)) as (r & E & HP). rewrite E. cbn [bind]. destruct r as [y|].
  - exists (Some y). split; [reflexivity|]. exists [], x, l. split; [reflexivity|]. split; [exact HP|intros z []].
  - destruct IH as (r & E' & H'); [intros z Hz; apply H; right; exact Hz|]. exists r. split; [exact E'|]. destruct r as [y|].
    + destruct H' as (l1 & z & l2 & -> & Hz & H1). exists (x :: l1), z, l2. split; [reflexivity|]. split; [exact Hz|]. intros w [<-|Hw]; [exact HP|exact (H1 w Hw)].
    + intros z [<-|Hz]; [exact HP|exact (H' z Hz)].
Qed.

Lemma zrange_split a b l1 x l2 : zrange a b = l1 ++ x :: l2 -> a <= x < b /\ forall z, In z l1 <-> a <= z < x.
Proof.
  revert a. induction l1 as [|y l1 IH]; intros a E.
  - destruct (Z_lt_le_dec a b) as [L|L]; [|rewrite zrange_nil in E by lia; discriminate]. rewrite zrange_cons in E by lia. cbn [app] in E. injection E as <- _. split; [lia|]. intros z. split; [intros []|lia].
  - destruct (Z_lt_le_dec a b) as [L|L]; [|rewrite zrange_nil in E by lia; discriminate]. rewrite zrange_cons in E by lia. cbn [app] in E. injection E as <- E. apply IH in E as [H1 H2]. split; [lia|]. intros z. cbn [In]. rewrite H2. lia.
Qed.

(** ** fermat *)
Lemma fermat_pair n d : Z.odd n = true -> 1 < d -> d * d < n -> (d | n) -> exists a b, 0 < b /\ a * a - n = b * b /\ d = a - b /\ Z.sqrt n < a <= (n + 9) / 6 /\ n = d * (a + b) /\ d + n / d = 2 * a.
Proof.
  intros O H1 H2 [e E]. assert (Oe : Z.odd e = true /\ Z.odd d = true). { rewrite E, Z.odd_mul in O. apply andb_true_iff in O. exact O. }
  destruct Oe as [Oe Od]. apply Z.odd_spec in Oe as [u Hu]. apply Z.odd_spec in Od as [v Hv].
  assert (He : d < e) by nia. exists (u + v + 1), (u - v).
  assert (Hd : n / d = e) by (rewrite E; apply Z.div_mul; lia).
  split; [lia|]. split; [subst; ring|]. split; [lia|]. split; [|split; [subst; ring|rewrite Hd; lia]].
  split.
  - apply Z.sqrt_lt_square; [lia|lia|]. subst. nia.
  - apply Z.div_le_lower_bound; [lia|]. subst. assert (3 <= 2 * v + 1) by lia. nia.
Qed.

(** [g] is the value of [integer_sqrt n]. *)
Lemma fermat_gen n g : Z.odd n = true -> 5 <= n -> integer_sqrt n = Ret g -> Z.sqrt n <= g -> exists r, fermat n = Ret r /\
  ((1 < r /\ r * r < n /\ (r | n) /\ 2 * (g + 1) <= r + n / r /\ forall d, (d | n) -> 1 < d -> d * d < n -> 2 * (g + 1) <= d + n / d -> d <= r) \/
   (r = n /\ forall d, (d | n) -> 1 < d -> d * d < n -> d + n / d < 2 * (g + 1))).
Proof.
  intros O Hn E Hg. unfold fermat. rewrite Zmod_odd, O. cbn [Z.eqb]. rewrite E. cbn [bind].
  pose proof (Z.sqrt_spec n ltac:(lia)) as S. cbv zeta in S. pose proof (Z.sqrt_nonneg n) as S0.
  assert (Ha : forall a, In a (zrange (g + 1) ((n + 9) / 6 + 1)) -> n < a * a). { intros a Ha%zrange_In. clear - Ha Hg S S0. nia. }
  destruct (first_some_spec (fun a => do b <- integer_sqrt (a * a - n); Ret (if b * b =? a * a - n then Some (a - b) else None))
    (fun a r => match r with Some d => exists b, 0 <= b /\ b * b = a * a - n /\ d = a - b | None => ~ exists k, a * a - n = k * k end)
    (zrange (g + 1) ((n + 9) / 6 + 1))) as (r & Er & Hr).
  { intros a Ia. specialize (Ha a Ia). destruct (square_test (a * a - n) ltac:(lia)) as (b & Eb & Hb & Q). rewrite Eb. cbn [bind]. eexists. split; [reflexivity|].
    destruct (Z.eqb_spec (b * b) (a * a - n)) as [X|X]; [exists b; repeat split; lia|]. rewrite <- Q. exact X. }
  rewrite Er. cbn [bind]. destruct r as [d|].
  - exists d. split; [reflexivity|]. left. destruct Hr as (l1 & a & l2 & El & (b & Hb & Eb & ->) & Hl). apply zrange_split in El as [Ia Il].
    assert (Sq : n < a * a) by (apply Ha, zrange_In; lia). assert (Hb0 : 0 < b) by (clear - Hb Eb Sq; nia).
    assert (Ha6 : 6 * a <= n + 9). { assert (a <= (n + 9) / 6) by lia. pose proof (Z.mul_div_le (n + 9) 6). lia. }
    assert (Ha0 : 0 < a) by lia.
    assert (Hd0 : b < a). { clear - Ha0 Hb0 Eb Hn. nia. }
    assert (Eprod : (a - b) * (a + b) = n) by (clear - Eb; lia).
    split. { destruct (Z.eq_dec (a - b) 1) as [X|X]; [|lia]. exfalso. assert (a + b = n) by (rewrite X in Eprod; lia). lia. }
    split. { clear - Eprod Hb0 Hd0 Ha0. nia. }
    split; [exists (a + b); lia|]. split. { assert (X : n / (a - b) = a + b) by (rewrite <- Eprod, Z.mul_comm; apply Z.div_mul; lia). rewrite X. lia. } intros d Dd D1 D2 D3. destruct (fermat_pair n d O D1 D2 Dd) as (a' & b' & Hb' & E' & -> & Ha' & En & Es).
    assert (L : a <= a'). { destruct (Z_lt_le_dec a' a) as [X|X]; [|lia]. exfalso. apply (Hl a'); [apply Il; lia|]. exists b'. exact E'. }
    clear - L E' Eb Hb Hb' Ha0 D1. assert (Lb : b <= b') by nia. assert (Eq : (a - b) * (a + b) = (a' - b') * (a' + b')) by lia.
    destruct (Z_lt_le_dec (a - b) (a' - b')) as [X|X]; [exfalso|exact X].
    assert ((a' - b') * (a + b) <= (a' - b') * (a' + b')) by (apply Z.mul_le_mono_nonneg_l; lia).
    assert ((a - b) * (a + b) < (a' - b') * (a + b)) by (apply Z.mul_lt_mono_pos_r; lia). lia.
  - exists n. split; [reflexivity|]. right. split; [reflexivity|]. intros d Dd D1 D2. destruct (Z_lt_le_dec (d + n / d) (2 * (g + 1))) as [|D3]; [assumption|].
    exfalso. destruct (fermat_pair n d O D1 D2 Dd) as (a' & b' & Hb' & E' & -> & Ha' & En & Es). apply (Hr a'); [apply zrange_In; lia|]. exists b'. exact E'.
Qed.

Lemma fermat_exact n : Z.odd n = true -> 5 <= n -> (n < 2 ^ 52 \/ 2 ^ 60 < n) -> exists r, fermat n = Ret r /\
  ((1 < r /\ r * r < n /\ (r | n) /\ forall d, (d | n) -> 1 < d -> d * d < n -> d <= r) \/
   (r = n /\ forall d, (d | n) -> 1 < d -> ~ d * d < n)).
Proof.
  intros O Hn Hr. destruct (C04_integer_sqrt_exact n ltac:(lia)) as (g & E & H0 & H1 & H2). rewrite Z.pow_2_r in H1. rewrite Z.pow_2_r in H2.
  assert (G : Z.sqrt n = g). { apply Z.sqrt_unique. clear - H1 H2. lia. }
  assert (K : forall d, (d | n) -> 1 < d -> d * d < n -> 2 * (g + 1) <= d + n / d).
  { intros d Dd D1 D2. destruct (fermat_pair n d O D1 D2 Dd) as (a & b & _ & _ & _ & Ha & _ & ->). lia. }
  destruct (fermat_gen n g O Hn E ltac:(lia)) as (r & Ef & [(R1 & R2 & R3 & _ & R4)|(-> & R4)]); eexists; (split; [exact Ef|]); [left|right].
  - split; [exact R1|]. split; [exact R2|]. split; [exact R3|]. intros d Dd D1 D2. apply R4; try assumption. apply K; assumption.
  - split; [reflexivity|]. intros d Dd D1 D2. specialize (R4 d Dd D1 D2). specialize (K d Dd D1 D2). lia.
Qed.

Lemma fermat_divides n : 0 <= n -> exists r, fermat n = Ret r /\ (r | n).
Proof.
  intros Hn. destruct (Z.odd n) eqn:O.
  - destruct (Z_lt_le_dec n 5) as [L|L].
    + assert (n = 1 \/ n = 3) as [-> | ->]. { apply Z.odd_spec in O as [k ->]. lia. }
      * exists 1. split; [vm_compute; reflexivity|apply Z.divide_refl].
      * exists 1. split; [vm_compute; reflexivity|apply Z.divide_1_l].
    + destruct (C04_integer_sqrt_near n ltac:(lia)) as (g & E & Hg). destruct (fermat_gen n g O L E ltac:(lia)) as (r & Ef & H). exists r. split; [exact Ef|]. destruct H as [(_ & _ & H & _)|(-> & _)]; [exact H|apply Z.divide_refl].
  - exists 2. unfold fermat. rewrite Zmod_odd, O. split; [reflexivity|]. apply Z.mod_divide; [lia|]. rewrite Zmod_odd, O. reflexivity.
Qed.
