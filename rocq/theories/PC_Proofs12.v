(** * The method of Lagarias, Miller and Odlyzko: the sieve *)
From Coq Require Import ZArith List Bool Lia Znumtheory Permutation Sorted.
From Verif Require Import Base Py Dict Sums Lists Primes_Spec Pell_Model Pell_Proofs5 PC_Model PC_Spec PC_Proofs PC_Proofs2 PC_Proofs3 PC_Proofs5 PC_Proofs6 PC_Proofs8 PC_Proofs11.
Import ListNotations.
Open Scope Z_scope.

Section value.
  Context (N : Z) (ps : list Z) (HP : primes_upto N ps) (x y t : Z) (e : Z -> Z).
  Hypothesis (Hy : y <= N) (Hxy : 1 <= y <= x) (Hx : x < (y + 1) * (y + 1)) (Hty : pi t <= pi y).
  Hypothesis (HJ : forall j, pi t <= j < pi y -> 0 <= x / rd ps j <= N /\ Phi one (pref ps j) (x / rd ps j) = 1 + pi (x / rd ps j) - j + e j).
  Lemma value_ok : exists v, lmo_value x ps (pi y) (pi t) = Ret v /\ v + ph ps (pi t) x = pi x + Sum (pi t) (pi y) e.
  Proof using All.
    pose proof (pi_range N ps HP y Hy) as R. pose proof (pi_nonneg t) as T0.
    destruct (foldM_range (fun value i => do p <- pyget ps i; do q <- pydiv x p; Ret (value - Z.of_nat (bisect ps q))) (fun i v => v = (pi y + pi t - 2) * (pi y - pi t + 1) / 2 - Sum (pi t) i (fun j => pi (x / rd ps j))) (pi t) (pi y) ((pi y + pi t - 2) * (pi y - pi t + 1) / 2)) as (v & E & ->).
    - exact Hty.
    - rewrite Sum_nil by lia. lia.
    - intros i v Hi ->. rewrite rd_get by lia. cbn [bind]. pose proof (ps_ge2 N ps HP i ltac:(lia)) as P2. unfold pydiv. destruct (Z.eqb_spec (rd ps i) 0); [lia|]. cbn [bind]. destruct (HJ i Hi) as (B & _). rewrite (pi_bisect N ps HP) by lia. eexists. split; [reflexivity|]. rewrite Sum_last by lia. lia.
    - eexists. split; [exact E|]. rewrite gauss2 by lia. unfold ph. pose proof (Phi_unfold N ps HP one x (pi t) (pi y) one_completely ltac:(lia) ltac:(lia) ltac:(lia)) as U. rewrite (Phi_pi N ps HP y x Hy Hxy Hx) in U.
      assert (EE : Sum (pi t) (pi y) (fun j => one (rd ps j) * Phi one (pref ps j) (x / rd ps j)) = Sum (pi t) (pi y) (fun j => pi (x / rd ps j)) - Sum (pi t) (pi y) (fun j => j) + (pi y - pi t) + Sum (pi t) (pi y) e); [|lia].
      rewrite <- (Sum_ones (pi t) (pi y)) by lia. rewrite <- Sum_minus, <- !Sum_plus. apply Sum_ext. intros j Hj. destruct (HJ j Hj) as (_ & ->). unfold one. lia.
  Qed.
End value.

Lemma zsum_rd l : zsum l = Sum 0 (zlen l) (rd l).
Proof.
  induction l as [|a l IH]; [reflexivity|]. rewrite zsum_cons, IH. assert (zlen (a :: l) = 1 + zlen l) as -> by (unfold zlen; cbn [length]; lia). pose proof (zlen_nonneg l).
  rewrite (Sum_first 0 (1 + zlen l)) by lia. change (rd (a :: l) 0) with a. f_equal. rewrite (Sum_ext 0 (zlen l) (rd l) (fun i => rd (a :: l) (i + 1))); [rewrite Sum_shift; f_equal; lia|]. intros i Hi. unfold rd. destruct (Z.ltb_spec i 0); [lia|]. destruct (Z.ltb_spec (i + 1) 0); [lia|]. replace (Z.to_nat (i + 1)) with (S (Z.to_nat i)) by lia. reflexivity.
Qed.
Lemma zsum_slice l a b : 0 <= a <= b -> b <= zlen l -> zsum (firstn (Z.to_nat (b - a)) (skipn (Z.to_nat a) l)) = Sum a b (rd l).
Proof.
  intros H L. rewrite zsum_rd, zlen_firstn, zlen_skipn by lia. replace (Z.min (b - a) (Z.max 0 (zlen l - a))) with (b - a) by lia. rewrite (Sum_ext 0 (b - a) _ (fun i => rd l (i + a))); [rewrite Sum_shift; f_equal; lia|]. intros i Hi. rewrite rd_firstn by lia. destruct (Z.ltb_spec i (b - a)); [|lia]. apply rd_skipn; lia.
Qed.

Definition le1 (a b : Z * Z) : Prop := fst a <= fst b.
Lemma pair_insert_sorted a l : StronglySorted le1 l -> StronglySorted le1 (pair_insert a l).
Proof.
  intros H. induction H as [|b l Hl IH Hb]; [repeat constructor|]. cbn [pair_insert]. unfold pair_le. destruct ((fst a <? fst b) || ((fst a =? fst b) && (snd a <=? snd b))) eqn:E.
  - assert (AB : le1 a b). { unfold le1. apply orb_true_iff in E as [E|E]; [apply Z.ltb_lt in E; lia|]. apply andb_true_iff in E as (E & _). apply Z.eqb_eq in E. lia. }
    constructor; [constructor; assumption|]. constructor; [exact AB|]. eapply Forall_impl; [|exact Hb]. intros z Z1. unfold le1 in *. lia.
  - assert (BA : le1 b a). { unfold le1. apply orb_false_iff in E as (E & _). apply Z.ltb_ge in E. lia. }
    constructor; [exact IH|]. apply Forall_forall. intros z Hz. apply (Permutation_in _ (pair_insert_perm a l)) in Hz. destruct Hz as [<- |Hz]; [exact BA|]. rewrite Forall_forall in Hb. apply Hb, Hz.
Qed.
Lemma pair_sort_sorted l : StronglySorted le1 (pair_sort l).
Proof. induction l as [|a l IH]; [constructor|]. cbn [pair_sort fold_right]. apply pair_insert_sorted, IH. Qed.

Lemma leaf_fold block l : StronglySorted le1 l -> forall value lv, 0 <= lv -> (forall v s, In (v, s) l -> lv <= v + 1 /\ 0 <= v /\ v + 1 <= zlen block) ->
  fst (fst (fold_left (lmo_leaf block) l (value, lv, Sum 0 lv (rd block)))) = value + zsum (map (fun '(v, s) => sgn s * Sum 0 (v + 1) (rd block)) l).
Proof.
  induction 1 as [|[v s] l Hl IH Hb]; intros value lv H0 HI; [cbn; lia|]. cbn [fold_left map]. rewrite zsum_cons. destruct (HI v s (or_introl eq_refl)) as (A & B & C).
  unfold lmo_leaf at 2. rewrite zsum_slice by lia. rewrite <- Sum_app by lia. rewrite IH.
  - unfold sgn at 2. destruct (0 <? s); lia.
  - lia.
  - intros v' s' H'. destruct (HI v' s' (or_intror H')) as (_ & B' & C'). rewrite Forall_forall in Hb. specialize (Hb _ H'). unfold le1 in Hb. cbn [fst] in Hb. lia.
Qed.

Definition sieved (root : Z) (ps : list Z) (a : Z) (block : list Z) : Prop := zlen block = root + 1 /\ rd block 0 = 0 /\ forall i, 1 <= i <= root -> rd block i = cop (pref ps a) i.
Lemma sieved_Phi root ps a block v : sieved root ps a block -> 0 <= v <= root -> Sum 0 (v + 1) (rd block) = ph ps a v.
Proof. intros (L & Z0 & H) Hv. rewrite Sum_first by lia. rewrite Z0. unfold ph, Phi. cbn [Z.add]. apply Sum_ext. intros i Hi. rewrite H by lia. unfold one. lia. Qed.

Lemma sieve_step root ps a block : primes_upto root ps -> 1 <= a <= zlen ps -> sieved root ps (a - 1) block -> exists block', slice_fill (rd ps (a - 1)) (rd ps (a - 1)) (root / rd ps (a - 1)) 0 block = Ret block' /\ sieved root ps a block'.
Proof.
  intros HP Ha (L & Z0 & H). pose proof (ps_ge2 root ps HP (a - 1) ltac:(lia)) as P2. pose proof (ps_bound root ps HP (a - 1) ltac:(lia)) as PB. set (p := rd ps (a - 1)) in *. unfold slice_fill. fold (zlen block). rewrite L.
  assert (slice_len p (root + 1) p = root / p) as ->. { unfold slice_len. destruct (Z.ltb_spec p (root + 1)); [|lia]. replace (root + 1 - p - 1) with (root + (-1) * p) by lia. rewrite Z.div_add by lia. lia. }
  assert (0 <= root / p) by (apply Z.div_pos; lia). rewrite Z.max_r by lia. rewrite Z.eqb_refl. eexists. split; [reflexivity|].
  assert (R : forall i, 0 <= i <= root -> rd (fill_from 0 p p 0 block) i = if (p <=? i) && ((i - p) mod p =? 0) then 0 else rd block i).
  { intros i Hi. unfold rd. destruct (Z.ltb_spec i 0); [lia|]. rewrite fill_from_nth by (unfold zlen in L; lia). replace (0 + Z.of_nat (Z.to_nat i)) with i by lia. reflexivity. }
  split; [unfold zlen; rewrite fill_from_length; exact L|]. split.
  - rewrite R by lia. destruct (Z.leb_spec p 0); [lia|]. exact Z0.
  - intros i Hi. rewrite R by lia. assert (pref ps a = pref ps (a - 1) ++ [p]) as -> by (unfold p; rewrite <- pref_S by lia; f_equal; lia). unfold cop. rewrite free_app. replace ((i - p) mod p) with (i mod p) by (replace (i - p) with (i + (-1) * p) by lia; rewrite Z.mod_add by lia; reflexivity).
    destruct (Z.eqb_spec (i mod p) 0) as [E|E]; cbn [negb].
    + rewrite andb_false_r, andb_true_r. destruct (Z.leb_spec p i) as [|G]; [reflexivity|]. rewrite Z.mod_small in E by lia. lia.
    + rewrite andb_false_r, andb_true_r. apply H, Hi.
Qed.
