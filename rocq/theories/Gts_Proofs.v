(** * Proofs: reversing a segment of a tour *)
From Coq Require Import ZArith List Bool Lia Sorting.Permutation.
From Verif Require Import Base Py Sums Gts_Spec Gts_Model.
Import ListNotations.
Open Scope Z_scope.

Lemma rd_nth l i : 0 <= i -> rd l i = nth (Z.to_nat i) l 0.
Proof. intros H. unfold rd. destruct (Z.ltb_spec i 0); [lia|reflexivity]. Qed.
Lemma rd_rev l t : 0 <= t < zlen l -> rd (rev l) t = rd l (zlen l - 1 - t).
Proof. intros H. unfold zlen in *. rewrite !rd_nth by lia. rewrite rev_nth by lia. f_equal. lia. Qed.

Lemma writes : forall idxs xs r, length xs = length idxs -> NoDup idxs -> (forall t, In t idxs -> 0 <= t < zlen r) ->
  exists r', foldM (fun r '(x, t) => pyset r t x) (combine xs idxs) r = Ret r' /\ zlen r' = zlen r /\
    (forall s, (s < length idxs)%nat -> rd r' (nth s idxs 0) = nth s xs 0) /\ (forall t, ~ In t idxs -> rd r' t = rd r t).
Proof.
  induction idxs as [|t idxs IH]; intros xs r L ND B.
  - destruct xs; [|discriminate]. exists r. cbn. split; [reflexivity|]. split; [reflexivity|]. split; [intros s H; lia|auto].
  - destruct xs as [|x xs]; [discriminate|]. cbn [combine foldM]. destruct (rd_set r t x (B t (or_introl eq_refl))) as (r1 & E & L1 & R1). rewrite E. cbn [bind]. inversion ND; subst.
    destruct (IH xs r1) as (r' & E' & L' & V & O); [cbn in L; lia|assumption|intros u Hu; rewrite L1; apply B; right; exact Hu|].
    exists r'. split; [exact E'|]. split; [lia|]. split.
    + intros [|s] H; cbn [nth].
      * rewrite O by assumption. rewrite R1, Z.eqb_refl. reflexivity.
      * apply V. cbn in H. lia.
    + intros u Hu. rewrite O by (intros X; apply Hu; right; exact X). rewrite R1. destruct (Z.eqb_spec u t); [subst; exfalso; apply Hu; left; reflexivity|reflexivity].
Qed.

Lemma mod_cases a n : 0 < n -> 0 <= a mod n < n /\ exists q, a = n * q + a mod n.
Proof. intros H. split; [apply Z.mod_pos_bound; exact H|]. exists (a / n). apply Z.div_mod. lia. Qed.

Lemma idxs_ok n : 0 < n -> forall fuel k j, 0 <= k < n -> 0 <= j < n -> j <> k -> (Z.to_nat ((j - k) mod n) <= fuel)%nat ->
  idxs_loop fuel n k j = Ret (map (fun t => (k + t) mod n) (zrange 0 ((j - k) mod n + 1))).
Proof.
  intros N. induction fuel as [|fuel IH]; intros k j K J D F.
  - exfalso. destruct (mod_cases (j - k) n N) as (B & q & E). assert ((j - k) mod n = 0) by lia. assert (q = 0) by nia. nia.
  - cbn [idxs_loop]. destruct (mod_cases (j - k) n N) as (B & q & E). set (m := (j - k) mod n) in *. assert (Mp : 0 < m) by (destruct (Z.eq_dec m 0); [assert (q = 0) by nia; nia|lia]).
    assert (J' : j = (k + m) mod n) by (apply Z.mod_unique_pos with (q := - q); [lia|nia]).
    rewrite (zrange_cons 0) by lia. cbn [map]. rewrite Z.add_0_r, (Z.mod_small k n) by lia. destruct (Z.eqb_spec ((k + 1) mod n) j) as [X|X].
    + assert (m = 1). { rewrite J' in X. destruct (mod_cases (k + 1) n N) as (B1 & q1 & E1). destruct (mod_cases (k + m) n N) as (B2 & q2 & E2). rewrite X in E1. assert (n * (q2 - q1) = m - 1) by nia. assert (q2 - q1 = 0) by nia. nia. }
      rewrite H. rewrite zrange_cons by lia. rewrite zrange_nil by lia. cbn [map]. reflexivity.
    + assert (M1 : (j - (k + 1) mod n) mod n = m - 1). { rewrite Zminus_mod_idemp_r. symmetry. apply Z.mod_unique_pos with (q := q); [|lia]. split; [lia|lia]. }
      rewrite IH; [|apply Z.mod_pos_bound; exact N|exact J|congruence|rewrite M1; lia]. cbn [bind]. f_equal. f_equal. rewrite M1. replace (m - 1 + 1) with m by ring.
      replace (zrange (0 + 1) (m + 1)) with (map (fun t => 1 + t) (zrange 0 m)).
      * rewrite map_map. apply map_ext. intros t. rewrite Zplus_mod_idemp_l. f_equal. ring.
      * unfold zrange. rewrite map_map. replace (m + 1 - (0 + 1)) with (m - 0) by ring. apply map_ext. intros t. lia.
Qed.

(** Where the point at position t of the new path comes from. *)
Definition source (n k i t : Z) : Z := if (t - k) mod n <=? (i - k) mod n then (i + k - t) mod n else t.

Lemma rev_path_ok n path k i : zlen path = n -> 0 <= k < n -> 0 <= i < n ->
  exists r, rev_path path k i = Ret r /\ zlen r = n /\ forall t, 0 <= t < n -> rd r t = rd path (source n k i t).
Proof.
  intros L K I. assert (N : 0 < n) by lia. unfold rev_path. destruct (Z.ltb_spec k i) as [C|C]; [|destruct (Z.ltb_spec i k) as [C'|C']].
  - eexists. split; [reflexivity|]. pose proof (zlen_firstn path k) as L1. pose proof (zlen_skipn path k) as L2. pose proof (zlen_skipn path (i + 1)) as L3.
    pose proof (zlen_firstn (skipn (Z.to_nat k) path) (i + 1 - k)) as L4. set (seg := firstn (Z.to_nat (i + 1 - k)) (skipn (Z.to_nat k) path)) in *.
    assert (Ls : zlen (rev seg) = zlen seg) by (unfold zlen; rewrite rev_length; reflexivity). split; [rewrite !zlen_app, Ls; lia|].
    intros t Ht. rewrite !rd_app. rewrite L1 by lia. rewrite Ls, L4, L2 by lia. replace (Z.min k (zlen path)) with k by lia. replace (Z.min (i + 1 - k) (Z.max 0 (zlen path - k))) with (i + 1 - k) by lia.
    unfold source. rewrite (Z.mod_small (i - k)) by lia. destruct (Z.ltb_spec t k) as [T|T].
    + replace ((t - k) mod n) with (t - k + n) by (apply Z.mod_unique_pos with (q := -1); lia). destruct (Z.leb_spec (t - k + n) (i - k)); [lia|]. rewrite rd_firstn by lia. destruct (Z.ltb_spec t k); [reflexivity|lia].
    + rewrite (Z.mod_small (t - k)) by lia. destruct (Z.ltb_spec (t - k) (i + 1 - k)), (Z.leb_spec (t - k) (i - k)); try lia.
      * rewrite rd_rev by lia. rewrite L4, L2 by lia. unfold seg. rewrite rd_firstn by lia. replace (Z.min (i + 1 - k) (Z.max 0 (zlen path - k))) with (i + 1 - k) by lia. destruct (Z.ltb_spec (i + 1 - k - 1 - (t - k)) (i + 1 - k)); [|lia].
        rewrite rd_skipn by lia. rewrite Z.mod_small by lia. f_equal. ring.
      * rewrite rd_skipn by lia. f_equal. ring.
  - change (Z.of_nat (length path)) with (zlen path). rewrite L. rewrite (idxs_ok n N) by (try lia; unfold zlen in L; pose proof (Z.mod_pos_bound (i - k) n N); lia). cbn [bind].
    destruct (mod_cases (i - k) n N) as (B & q & E). set (m := (i - k) mod n) in *. set (idxs := map (fun t => (k + t) mod n) (zrange 0 (m + 1))).
    assert (In_idx : forall t, In t idxs -> 0 <= t < n) by (intros t Ht; unfold idxs in Ht; apply in_map_iff in Ht as (s & <- & _); apply Z.mod_pos_bound; exact N).
    rewrite (mapM_ret _ (fun t => rd path t)) by (intros t Ht; apply rd_get; rewrite L; apply In_idx; exact Ht). cbn [bind].
    assert (Inj : forall s s', 0 <= s < n -> 0 <= s' < n -> (k + s) mod n = (k + s') mod n -> s = s').
    { intros s s' S1 S2 X. destruct (mod_cases (k + s) n N) as (_ & q1 & E1). destruct (mod_cases (k + s') n N) as (_ & q2 & E2). rewrite X in E1. assert (n * (q1 - q2) = s - s') by nia. assert (q1 - q2 = 0) by nia. nia. }
    assert (ND : NoDup idxs).
    { unfold idxs. assert (G : forall l, NoDup l -> (forall s, In s l -> 0 <= s < n) -> NoDup (map (fun t => (k + t) mod n) l)).
      { induction l as [|s l IHl]; intros Nl Bl; cbn; [constructor|]. inversion Nl; subst. constructor; [|apply IHl; [assumption|intros x Hx; apply Bl; right; exact Hx]]. intros X. apply in_map_iff in X as (s' & X & Hs'). assert (s = s') by (apply Inj; [apply Bl; left; reflexivity|apply Bl; right; exact Hs'|symmetry; exact X]). subst. contradiction. }
      apply G; [apply zrange_NoDup|]. intros s Hs. apply zrange_In in Hs. lia. }
    destruct (writes idxs (rev (map (fun t => rd path t) idxs)) path) as (r & Er & Lr & V & O); [rewrite rev_length, map_length; reflexivity|exact ND|intros t Ht; rewrite L; apply In_idx; exact Ht|].
    exists r. split; [exact Er|]. split; [lia|]. intros t Ht. unfold source. fold m. destruct (mod_cases (t - k) n N) as (Bs & q1 & E1). set (s := (t - k) mod n) in *.
    assert (Ts : t = (k + s) mod n) by (apply Z.mod_unique_pos with (q := - q1); [lia|nia]).
    assert (Li : length idxs = Z.to_nat (m + 1)) by (unfold idxs; rewrite map_length, zrange_length; f_equal; lia).
    assert (Ni : forall x, 0 <= x <= m -> nth (Z.to_nat x) idxs 0 = (k + x) mod n).
    { intros x Hx. unfold idxs. rewrite (nth_indep _ 0 ((fun t => (k + t) mod n) 0)) by (rewrite map_length, zrange_length; lia). rewrite (map_nth (fun t => (k + t) mod n)), zrange_nth by lia. f_equal. lia. }
    destruct (Z.leb_spec s m) as [C2|C2].
    + specialize (V (Z.to_nat s) ltac:(lia)). rewrite Ni in V by lia. rewrite <- Ts in V. rewrite V. rewrite rev_nth by (rewrite map_length; lia). rewrite map_length, Li.
      rewrite (nth_indep _ 0 (rd path 0)) by (rewrite map_length; lia). rewrite (map_nth (fun t => rd path t)). f_equal. replace (Z.to_nat (m + 1) - Datatypes.S (Z.to_nat s))%nat with (Z.to_nat (m - s)) by lia. rewrite Ni by lia.
      destruct (mod_cases (i + k - t) n N) as (Bx & q2 & E2). symmetry. apply Z.mod_unique_pos with (q := q2 + q1 - q); [exact Bx|]. nia.
    + apply O. intros X. unfold idxs in X. apply in_map_iff in X as (s' & X & Hs'). apply zrange_In in Hs'. assert (s' = s) by (apply Inj; [lia|lia|rewrite X; exact Ts]). lia.
  - exists path. split; [reflexivity|]. split; [exact L|]. intros t Ht. assert (k = i) by lia. subst i. unfold source. rewrite Z.sub_diag, Z.mod_0_l by lia. destruct (Z.leb_spec ((t - k) mod n) 0) as [X|X]; [|reflexivity].
    destruct (mod_cases (t - k) n N) as (Bs & q & E). assert (q = 0) by nia. replace (k + k - t) with k by nia. rewrite Z.mod_small by lia. f_equal. nia.
Qed.

Lemma source_range n k i t : 0 <= t < n -> 0 <= source n k i t < n.
Proof. intros H. unfold source. destruct (_ <=? _); [apply Z.mod_pos_bound; lia|exact H]. Qed.
Lemma source_invol n k i t : 0 <= t < n -> source n k i (source n k i t) = t.
Proof.
  intros H. assert (N : 0 < n) by lia. unfold source. destruct (mod_cases (t - k) n N) as (B1 & q1 & E1). destruct (mod_cases (i - k) n N) as (B2 & q2 & E2).
  destruct (Z.leb_spec ((t - k) mod n) ((i - k) mod n)) as [C|C].
  - assert (X : ((i + k - t) mod n - k) mod n = (i - k) mod n - (t - k) mod n). { rewrite Zminus_mod_idemp_l. symmetry. apply Z.mod_unique_pos with (q := q2 - q1); [lia|nia]. }
    rewrite X. destruct (Z.leb_spec ((i - k) mod n - (t - k) mod n) ((i - k) mod n)); [|lia]. rewrite Zminus_mod_idemp_r. replace (i + k - (i + k - t)) with t by ring. apply Z.mod_small. exact H.
  - destruct (Z.leb_spec ((t - k) mod n) ((i - k) mod n)); [lia|reflexivity].
Qed.

Lemma rd_list l : l = map (rd l) (zrange 0 (zlen l)).
Proof. 
  apply rd_ext; [rewrite zlen_map; unfold zlen; rewrite zrange_length; lia|]. intros i Hi. rewrite (rd_nth (map _ _)) by lia. rewrite (nth_indep _ 0 (rd l 0)) by (rewrite map_length, zrange_length; lia). rewrite map_nth, zrange_nth by lia. f_equal. lia.
Qed.

Lemma rev_path_perm n path k i r : zlen path = n -> 0 <= k < n -> 0 <= i < n -> rev_path path k i = Ret r -> Permutation r path.
Proof.
  intros L K I E. destruct (rev_path_ok n path k i L K I) as (r' & E' & Lr & R). rewrite E in E'. injection E' as <-.
  rewrite (rd_list r), (rd_list path), Lr, L. rewrite (map_ext_in _ (fun t => rd path (source n k i t))) by (intros t Ht; apply zrange_In in Ht; apply R; exact Ht).
  rewrite <- (map_map (source n k i) (rd path)). apply Permutation_map. apply NoDup_Permutation_bis.
  - assert (G : forall l, NoDup l -> (forall s, In s l -> 0 <= s < n) -> NoDup (map (source n k i) l)).
    { induction l as [|s l IHl]; intros Nl Bl; cbn; [constructor|]. inversion Nl; subst. constructor; [|apply IHl; [assumption|intros x Hx; apply Bl; right; exact Hx]].
      intros X. apply in_map_iff in X as (s' & X & Hs'). assert (s = s') by (rewrite <- (source_invol (zlen path) k i s), <- (source_invol (zlen path) k i s') by (apply Bl; cbn; auto); rewrite X; reflexivity). subst. contradiction. }
    apply G; [apply zrange_NoDup|]. intros s Hs. apply zrange_In in Hs. exact Hs.
  - rewrite map_length. reflexivity.
  - intros x Hx. apply in_map_iff in Hx as (t & <- & Ht). apply zrange_In. apply zrange_In in Ht. apply source_range. exact Ht.
Qed.

(** The change of the length of the tour. *)
Section Length.
  Context (n : Z) (d : Z -> Z -> Z).
  Hypothesis N : 0 < n.
  Definition walk (f : Z -> Z) (k : Z) : Z := Sum k (k + n) (fun t => d (f t) (f (t + 1))).
  Lemma walk_shift f k : (forall t, f (t + n) = f t) -> walk f (k + 1) = walk f k.
  Proof using N.
    intros P. unfold walk. rewrite (Sum_first k (k + n)) by lia. replace (k + 1 + n) with (k + n + 1) by ring. rewrite Sum_last by lia. rewrite P. replace (k + n + 1) with (k + 1 + n) by ring. rewrite P. ring.
  Qed.
  Lemma walk_any f k : (forall t, f (t + n) = f t) -> walk f k = walk f 0.
  Proof using N.
    intros P. destruct (Z.le_gt_cases 0 k) as [K|K].
    - pattern k. apply natlike_ind; [reflexivity| |exact K]. intros x _ IH. unfold Z.succ. rewrite walk_shift by exact P. exact IH.
    - replace k with (- (- k)) by ring. assert (K' : 0 <= - k) by lia. revert K'. generalize (- k). intros x Hx. pattern x. apply natlike_ind; [reflexivity| |exact Hx].
      intros y _ IH. rewrite <- (walk_shift f (- Z.succ y)) by exact P. replace (- Z.succ y + 1) with (- y) by lia. exact IH.
  Qed.
  Lemma tour_length_walk p : tour_length n d p = walk (fun t => rd p (t mod n)) 0.
  Proof using N.
    unfold tour_length, walk. change (Sum 0 n (fun t => d (at_ n p t) (at_ n p (t + 1))) = Sum 0 (0 + n) (fun t => d (rd p (t mod n)) (rd p ((t + 1) mod n)))). apply Sum_ext. intros i Hi. unfold at_. rewrite !rd_nth by (apply Z.mod_pos_bound; exact N). reflexivity.
  Qed.

  Hypothesis sym : forall x y, d x y = d y x.
  Lemma length_change p k i r : zlen p = n -> 0 <= k < n -> 0 <= i < n -> k <> (i + 1) mod n -> rev_path p k i = Ret r ->
    tour_length n d r = tour_length n d p - (d (at_ n p i) (at_ n p (i + 1)) + d (at_ n p (k - 1)) (at_ n p k) - d (at_ n p (i + 1)) (at_ n p k) - d (at_ n p i) (at_ n p (k - 1))).
  Proof using N sym.
    intros L K I NK E. destruct (rev_path_ok n p k i L K I) as (r' & E' & Lr & R). rewrite E in E'. injection E' as <-. rewrite !tour_length_walk.
    set (P := fun t => rd p (t mod n)). set (Q := fun t => rd r (t mod n)).
    assert (per : forall l t, rd l ((t + n) mod n) = rd l (t mod n)) by (intros l t; f_equal; rewrite <- (Z.mul_1_l n) at 1; apply Z.mod_add; lia).
    rewrite <- (walk_any P k), <- (walk_any Q k) by (intros t; apply per).
    assert (AP : forall t, at_ n p t = P t) by (intros t; unfold at_, P; rewrite rd_nth by (apply Z.mod_pos_bound; exact N); reflexivity). rewrite !AP.
    destruct (mod_cases (i - k) n N) as (B & q & Em). set (m := (i - k) mod n) in *.
    assert (Pp : forall t z, P (t + n * z) = P t) by (intros t z; unfold P; f_equal; rewrite (Z.mul_comm n z); apply Z.mod_add; lia).
    assert (Qin : forall s, 0 <= s <= m -> Q (k + s) = P (i - s)).
    { intros s Hs. unfold Q, P. rewrite R by (apply Z.mod_pos_bound; exact N). unfold source. fold m. rewrite Zminus_mod_idemp_l. replace (k + s - k) with s by ring. rewrite (Z.mod_small s) by lia. destruct (Z.leb_spec s m); [|lia]. rewrite Zminus_mod_idemp_r. f_equal. f_equal. ring. }
    assert (Qout : forall s, m < s < n -> Q (k + s) = P (k + s)).
    { intros s Hs. unfold Q, P. rewrite R by (apply Z.mod_pos_bound; exact N). unfold source. fold m. rewrite Zminus_mod_idemp_l. replace (k + s - k) with s by ring. rewrite (Z.mod_small s) by lia. destruct (Z.leb_spec s m); [lia|reflexivity]. }
    assert (Pi : forall x, P (i + x) = P (k + m + x)) by (intros x; rewrite <- (Pp (k + m + x) q); f_equal; lia).
    assert (Mn : m < n - 1). { destruct (Z.eq_dec m (n - 1)) as [X|X]; [exfalso; apply NK; apply Z.mod_unique_pos with (q := q + 1); [lia|nia]|lia]. }
    unfold walk.
    assert (Split : forall g, Sum k (k + n) g = Sum 0 m (fun s => g (k + s)) + g (k + m) + Sum (m + 1) (n - 1) (fun s => g (k + s)) + g (k + (n - 1))).
    { intros g. replace (Sum k (k + n) g) with (Sum 0 n (fun s => g (s + k))) by (rewrite Sum_shift; f_equal; ring). rewrite (Sum_app 0 m n) by lia. rewrite (Sum_first m n) by lia. replace n with (n - 1 + 1) at 1 by ring. rewrite Sum_last by lia.
      rewrite (Sum_ext 0 m _ (fun s => g (k + s))) by (intros; f_equal; ring). rewrite (Sum_ext (m + 1) (n - 1) _ (fun s => g (k + s))) by (intros; f_equal; ring). replace (n - 1 + k) with (k + (n - 1)) by ring. replace (m + k) with (k + m) by ring. ring. }
    rewrite !Split. cbv beta.
    assert (S1 : Sum 0 m (fun s => d (Q (k + s)) (Q (k + s + 1))) = Sum 0 m (fun s => d (P (k + s)) (P (k + s + 1)))).
    { rewrite <- (Sum_rev 0 m (fun s => d (P (k + s)) (P (k + s + 1)))). apply Sum_ext. intros s Hs. rewrite <- Z.add_assoc, !Qin by lia. rewrite sym. replace (i - (s + 1)) with (i + (- s - 1)) by ring. replace (i - s) with (i + (- s)) by ring. rewrite !Pi. f_equal; f_equal; ring. }
    assert (S2 : Sum (m + 1) (n - 1) (fun s => d (Q (k + s)) (Q (k + s + 1))) = Sum (m + 1) (n - 1) (fun s => d (P (k + s)) (P (k + s + 1)))).
    { apply Sum_ext. intros s Hs. rewrite <- Z.add_assoc, !Qout by lia. reflexivity. }
    rewrite S1, S2. rewrite <- !Z.add_assoc. rewrite (Qin m) by lia. rewrite (Qout (m + 1)) by lia. rewrite (Qout (n - 1)) by lia. replace (n - 1 + 1) with n by ring.
    assert (Qk : Q (k + n) = P i). { replace (P i) with (P (i - 0)) by (f_equal; ring). rewrite <- (Qin 0) by lia. rewrite Z.add_0_r. apply per. }
    rewrite Qk. assert (X1 : P (i - m) = P k) by (replace (i - m) with (i + (- m)) by ring; rewrite Pi; f_equal; ring). rewrite X1.
    assert (X2 : P (k + (m + 1)) = P (i + 1)) by (rewrite Pi; f_equal; ring). rewrite X2. assert (X3 : P (k + (n - 1)) = P (k - 1)) by (rewrite <- (Pp (k - 1) 1); f_equal; ring). rewrite X3.
    assert (X4 : P (k + n) = P k) by (rewrite <- (Pp k 1); f_equal; ring). rewrite X4. assert (X5 : P (k + m) = P i) by (replace (P i) with (P (i + 0)) by (f_equal; ring); rewrite Pi; f_equal; ring). rewrite X5.
    rewrite (sym (P (i + 1)) (P k)), (sym (P i) (P (k - 1))). ring.
  Qed.
End Length.
