(** * Proofs: exact arithmetic, children, generations *)
From Coq Require Import ZArith List Bool Lia Sorting.Sorted Sorting.Permutation.
From Verif Require Import Base Loop Py Sums Lists2 Gts_Spec Gts_Model Gts_Proofs Gts_Proofs2.
Import ListNotations.
Open Scope Z_scope.

Section Exact.
  Context (n : Z) (dist : Z -> Z -> Z) (eps : Z).
  Hypothesis N : 0 < n.
  Hypothesis sym : forall x y, dist x y = dist y x.
  Hypothesis nonneg : forall x y, 0 <= dist x y.
  Hypothesis Eps : 0 <= eps.
  Notation two_opt := (two_opt n dist Z.add Z.sub eps).
  Notation opt_step := (opt_step n dist Z.add Z.sub eps).

  Lemma cost_exact p : tour n p -> cost n dist Z.add p = Ret (tour_length n dist p).
  Proof using N sym.
    intros T. pose proof (tour_len n p ltac:(lia) T) as L. unfold cost. rewrite (rd_get p 0) by lia. cbn [bind].
    assert (X : pyget p (-1) = Ret (rd p (n - 1))). { unfold pyget, pyidx. unfold zlen in L. destruct (Z.leb_spec 0 (-1)); [lia|]. cbn [andb]. replace ((- Z.of_nat (length p) <=? -1) && (-1 <? 0)) with true by (symmetry; apply andb_true_iff; split; [apply Z.leb_le; lia|reflexivity]).
      rewrite (nth_error_nth' _ 0) by lia. rewrite rd_nth by lia. f_equal. f_equal. lia. }
    rewrite X. cbn [bind]. destruct (foldM_range (fun total i => do a <- pyget p i; do b <- pyget p (i + 1); Ret (total + dist a b)) (fun i s => s = dist (rd p 0) (rd p (n - 1)) + Sum 0 i (fun t => dist (rd p t) (rd p (t + 1)))) 0 (n - 1) (dist (rd p 0) (rd p (n - 1))) ltac:(lia)) as (c & E & Ec).
    - rewrite Sum_nil by lia. lia.
    - intros i s Hi ->. rewrite (rd_get p i), (rd_get p (i + 1)) by lia. cbn [bind]. eexists. split; [reflexivity|]. rewrite Sum_last by lia. ring.
    - rewrite E. f_equal. subst c. unfold tour_length. change (zsum (map (fun i => dist (at_ n p i) (at_ n p (i + 1))) (zrange 0 n))) with (Sum 0 n (fun i => dist (at_ n p i) (at_ n p (i + 1)))). replace n with (n - 1 + 1) at 3 by ring. rewrite Sum_last by lia.
      rewrite (Sum_ext 0 (n - 1) (fun t => dist (rd p t) (rd p (t + 1))) (fun i => dist (at_ n p i) (at_ n p (i + 1)))) by (intros i Hi; rewrite !at_rd by exact N; rewrite !Z.mod_small by lia; reflexivity).
      replace (n - 1 + 1) with n by ring. rewrite !at_rd by exact N. rewrite Z.mod_same, Z.mod_small by lia. rewrite (sym (rd p (n - 1))). ring.
  Qed.

  Lemma tour_length_nonneg p : 0 <= tour_length n dist p.
  Proof using nonneg.
    unfold tour_length. generalize (zrange 0 n). intros l. induction l as [|i l IH]; cbn [map]; [cbn; lia|]. rewrite zsum_cons. pose proof (nonneg (at_ n p i) (at_ n p (i + 1))). lia.
  Qed.

  Lemma two_opt_ends fuel p : tour n p -> (n + 1) * tour_length n dist p + n < 2 ^ Z.of_nat fuel ->
    exists q, two_opt fuel p = Ret (tour_length n dist q, q) /\ tour n q /\ optimal n dist Z.add Z.sub eps q /\ tour_length n dist q <= tour_length n dist p.
  Proof using N sym nonneg Eps.
    intros T F. unfold Gts_Model.two_opt.
    destruct (run_rule opt_step (fun '(q, i) => tour n q /\ 0 <= i <= n /\ optimal_to n dist Z.add Z.sub eps q i /\ tour_length n dist q <= tour_length n dist p) (fun '(q, i) => (n + 1) * tour_length n dist q + (n - i))
      (fun r => exists q, r = Ret q /\ tour n q /\ optimal n dist Z.add Z.sub eps q /\ tour_length n dist q <= tour_length n dist p)) with (n := fuel) (s := (p, 0)) as (q & E & Tq & O & Lq).
    - intros (q & i) (Tq & I & O & Lq). destruct (Z.lt_ge_cases i n) as [C|C].
      + destruct (round_ok n dist Z.add Z.sub eps q i N Tq ltac:(lia) O) as [(-> & O')|(k & p' & Hk & Nk & _ & G & E & ->)].
        * split; [split; [exact Tq|split; [lia|split; [exact O'|exact Lq]]]|]. pose proof (tour_length_nonneg q). nia.
        * assert (Tp : tour n p') by (unfold tour; rewrite <- Tq; apply (rev_path_perm n q k i); [apply tour_len; [lia|exact Tq]|exact Hk|lia|exact E]).
          pose proof (length_change n dist N sym q k i p' (tour_len n q ltac:(lia) Tq) Hk ltac:(lia) Nk E) as Ch. unfold gain in G.
          assert (Ls : tour_length n dist p' <= tour_length n dist q - 1) by lia. split; [split; [exact Tp|split; [lia|split; [intros i' k' Hi; lia|lia]]]|]. pose proof (tour_length_nonneg p'). nia.
      + unfold Gts_Model.opt_step. destruct (Z.ltb_spec i n); [lia|]. exists q. split; [reflexivity|]. split; [exact Tq|]. assert (i = n) by lia. subst i. split; [exact O|exact Lq].
    - split; [exact T|]. split; [lia|]. split; [intros i k Hi; lia|lia].
    - lia.
    - exists q. rewrite E. cbn [bind]. rewrite cost_exact by exact Tq. cbn [bind]. auto.
  Qed.

  Lemma tour_length_bound D p : (forall x y, dist x y <= D) -> tour_length n dist p <= n * D.
  Proof using N.
    intros B. unfold tour_length. assert (G : forall l, zsum (map (fun i => dist (at_ n p i) (at_ n p (i + 1))) l) <= Z.of_nat (length l) * D).
    { induction l as [|i l IH]; cbn [map length]; [cbn; lia|]. rewrite zsum_cons. pose proof (B (at_ n p i) (at_ n p (i + 1))). lia. }
    specialize (G (zrange 0 n)). rewrite zrange_length in G. replace (Z.of_nat (Z.to_nat (n - 0))) with n in G by lia. exact G.
  Qed.
End Exact.

Section Pop.
  Context (n : Z) (dist : Z -> Z -> Z) (fadd fsub : Z -> Z -> Z) (eps inf : Z).
  Hypothesis N : 0 < n.
  Notation two_opt := (two_opt n dist fadd fsub eps).
  Notation cost := (cost n dist fadd).

  (** The child: the first h points of P1 from j on, then the others in the order of P2. *)
  Definition head_part (h j : Z) (P1 : list Z) : list Z := map (fun t => at_ n P1 (t + j)) (zrange 0 h).
  Definition tail_part (T P2 : list Z) : list Z := filter (fun p => negb (existsb (Z.eqb p) T)) P2.

  Lemma existsb_In p T : existsb (Z.eqb p) T = true <-> In p T.
  Proof using. clear. rewrite existsb_exists. split; [intros (x & Hx & E); apply Z.eqb_eq in E; subst; exact Hx|intros H; exists p; split; [exact H|apply Z.eqb_refl]]. Qed.

  Lemma child_parts h j P1 P2 : tour n P1 -> tour n P2 -> 0 <= h <= n -> tour n (head_part h j P1 ++ tail_part (head_part h j P1) P2).
  Proof using N.
    clear dist fadd fsub eps inf. intros T1 T2 Hh. unfold tour. apply NoDup_Permutation.
    - apply NoDup_app_intro; [|apply NoDup_filter, (tour_NoDup n), T2|].
      + unfold head_part. assert (G : forall l, NoDup l -> (forall s, In s l -> 0 <= s < n) -> NoDup (map (fun t => at_ n P1 (t + j)) l)).
        { induction l as [|s l IHl]; intros Nl Bl; cbn; [constructor|]. inversion Nl; subst. constructor; [|apply IHl; [assumption|intros x Hx; apply Bl; right; exact Hx]]. intros X. apply in_map_iff in X as (s' & X & Hs'). rewrite !at_rd in X by exact N.
          apply (tour_inj n P1) in X; [|exact T1|apply Z.mod_pos_bound; exact N|apply Z.mod_pos_bound; exact N]. pose proof (Bl s (or_introl eq_refl)). pose proof (Bl s' (or_intror Hs')).
          destruct (mod_cases (s + j) n N) as (_ & q1 & E1). destruct (mod_cases (s' + j) n N) as (_ & q2 & E2). rewrite <- X in E1. assert (n * (q1 - q2) = s - s') by nia. assert (q1 - q2 = 0) by nia. assert (s = s') by nia. subst. contradiction. }
        apply G; [apply zrange_NoDup|]. intros s Hs. apply zrange_In in Hs. lia.
      + intros x Hx Hx'. unfold tail_part in Hx'. apply filter_In in Hx' as (_ & X). apply existsb_In in Hx. rewrite Hx in X. discriminate.
    - apply zrange_NoDup.
    - intros x. rewrite in_app_iff, zrange_In. split.
      + intros [H|H]; [unfold head_part in H; apply in_map_iff in H as (t & <- & Ht); rewrite at_rd by exact N; apply tour_rd; [exact T1|apply Z.mod_pos_bound; exact N]|].
        unfold tail_part in H. apply filter_In in H as (H & _). apply (tour_In n P2 x T2). exact H.
      + intros H. destruct (existsb (Z.eqb x) (head_part h j P1)) eqn:E; [left; apply existsb_In; exact E|right]. apply filter_In. split; [apply (tour_In n P2 x T2); exact H|rewrite E; reflexivity].
  Qed.

  Lemma fill_done T : forall P2 C i, foldM (fill_step n T) P2 (C, i, true) = Ret (C, i, true).
  Proof using. induction P2 as [|p P2 IH]; intros C i; cbn [foldM]; [reflexivity|]. unfold fill_step at 1. cbn [bind]. apply IH. Qed.

  Lemma fill_ok T : forall P2 C i, zlen C = n -> 0 <= i -> i + zlen (tail_part T P2) <= n ->
    exists C' i' d, foldM (fill_step n T) P2 (C, i, false) = Ret (C', i', d) /\
      zlen C' = n /\ forall t, 0 <= t -> rd C' t = if (i <=? t) && (t <? i + zlen (tail_part T P2)) then rd (tail_part T P2) (t - i) else rd C t.
  Proof using.
    induction P2 as [|p P2 IH]; intros C i L I B; cbn [foldM].
    - exists C, i, false. split; [reflexivity|]. split; [exact L|]. intros t _. change (zlen (tail_part T [])) with 0. destruct (Z.leb_spec i t), (Z.ltb_spec t (i + 0)); cbn [andb]; try reflexivity. lia.
    - unfold fill_step at 1. unfold tail_part in *. cbn [filter] in *. destruct (existsb (Z.eqb p) T); cbn [negb] in *; cbn [bind]; [apply IH; assumption|].
      set (F := filter (fun p => negb (existsb (Z.eqb p) T)) P2) in *. assert (Lf : zlen (p :: F) = 1 + zlen F) by (unfold zlen; cbn [length]; lia). pose proof (zlen_nonneg F). rewrite Lf in *.
      destruct (rd_set C i p) as (C1 & E & L1 & R1); [lia|]. rewrite E. cbn [bind].
      assert (RF : forall t, 0 <= t -> rd (p :: F) t = if t =? 0 then p else rd F (t - 1)). { intros t Ht. rewrite rd_nth by exact Ht. destruct (Z.eqb_spec t 0) as [->|]; [reflexivity|]. rewrite rd_nth by lia. replace (Z.to_nat t) with (Datatypes.S (Z.to_nat (t - 1))) by lia. reflexivity. }
      destruct (Z.leb_spec n (i + 1)) as [C2|C2].
      + rewrite fill_done. exists C1, (i + 1), true. split; [reflexivity|]. split; [lia|]. intros t Ht. rewrite R1. assert (zlen F = 0) by lia. destruct (Z.leb_spec i t), (Z.ltb_spec t (i + (1 + zlen F))), (Z.eqb_spec t i); cbn [andb]; try lia; try reflexivity. rewrite RF by lia. destruct (Z.eqb_spec (t - i) 0); [reflexivity|lia].
      + destruct (IH C1 (i + 1)) as (C' & i' & d & E' & L' & R'); [lia|lia|lia|]. exists C', i', d. split; [exact E'|]. split; [exact L'|]. intros t Ht. rewrite R' by exact Ht. rewrite R1.
        destruct (Z.leb_spec (i + 1) t), (Z.ltb_spec t (i + 1 + zlen F)), (Z.leb_spec i t), (Z.ltb_spec t (i + (1 + zlen F))), (Z.eqb_spec t i); cbn [andb]; try lia; try reflexivity; rewrite RF by lia; destruct (Z.eqb_spec (t - i) 0); try lia; try reflexivity. f_equal. ring.
  Qed.

  Lemma child_ok h j P1 P2 : tour n P1 -> tour n P2 -> 0 <= h <= n -> child n h j P1 P2 = Ret (head_part h j P1 ++ tail_part (head_part h j P1) P2).
  Proof using N.
    clear dist fadd fsub eps inf. intros T1 T2 Hh. pose proof (child_parts h j P1 P2 T1 T2 Hh) as TC. apply tour_len in TC; [|lia]. rewrite zlen_app in TC. unfold child.
    assert (Lh : forall x, 0 <= x -> zlen (head_part x j P1) = x) by (intros x Hx; unfold head_part, zlen; rewrite map_length, zrange_length; lia). rewrite Lh in TC by lia.
    destruct (foldM_range (fun '(C, T) i => do x <- pyget P1 ((i + j) mod n); do C <- pyset C i x; Ret (C, x :: T))
      (fun i '(C, T) => zlen C = n /\ (forall t, 0 <= t < i -> rd C t = at_ n P1 (t + j)) /\ forall x, In x T <-> In x (head_part i j P1)) 0 h (repeat 0 (Z.to_nat n), []) ltac:(lia)) as ((C & T) & E & LC & RC & HT).
    - split; [rewrite zlen_repeat; lia|]. split; [intros t Ht; lia|]. intros x. unfold head_part. rewrite zrange_nil by lia. reflexivity.
    - intros i (C & T) Hi (LC & RC & HT). rewrite (rd_get P1) by (rewrite (tour_len n P1 ltac:(lia) T1); apply Z.mod_pos_bound; exact N). cbn [bind]. destruct (rd_set C i (rd P1 ((i + j) mod n))) as (C1 & -> & L1 & R1); [lia|]. cbn [bind]. eexists. split; [reflexivity|].
      split; [lia|]. split; [intros t Ht; rewrite R1; destruct (Z.eqb_spec t i) as [->|]; [rewrite at_rd by exact N; reflexivity|apply RC; lia]|]. intros x. unfold head_part. rewrite zrange_snoc by lia. rewrite map_app, in_app_iff. cbn [map In]. rewrite HT, at_rd by exact N. unfold head_part. tauto.
    - rewrite E. cbn [bind]. assert (TT : tail_part T P2 = tail_part (head_part h j P1) P2).
      { unfold tail_part. apply filter_ext. intros p. f_equal. destruct (existsb (Z.eqb p) T) eqn:X, (existsb (Z.eqb p) (head_part h j P1)) eqn:Y; try reflexivity.
        - apply existsb_In, HT, existsb_In in X. congruence.
        - apply existsb_In, HT, existsb_In in Y. congruence. }
      destruct (fill_ok T P2 C h LC ltac:(lia)) as (C' & i' & d & -> & L' & R'); [rewrite TT; lia|]. cbn [bind]. f_equal. apply rd_ext; [rewrite zlen_app, Lh by lia; lia|]. intros t Ht. rewrite R' by lia. rewrite rd_app, Lh by lia. rewrite TT.
      destruct (Z.leb_spec h t), (Z.ltb_spec t h), (Z.ltb_spec t (h + zlen (tail_part (head_part h j P1) P2))); cbn [andb]; try lia; try reflexivity.
      + rewrite RC by lia. unfold head_part. rewrite rd_nth by lia. rewrite (nth_indep _ 0 ((fun t => at_ n P1 (t + j)) 0)) by (rewrite map_length, zrange_length; lia). rewrite (map_nth (fun t => at_ n P1 (t + j))), zrange_nth by lia. f_equal. lia.
  Qed.

  (** Individuals. *)
  Definition good (x : Z * list Z) : Prop := tour n (snd x) /\ cost (snd x) = Ret (fst x).

  Definition stuck (fuel : nat) : Prop := exists p, tour n p /\ two_opt fuel p = Diverge.
  Lemma two_opt_good fuel p : tour n p -> two_opt fuel p = Diverge \/ exists x, two_opt fuel p = Ret x /\ good x.
  Proof using N. intros T. destruct (two_opt_sound n dist fadd fsub eps fuel p N T) as [E|(c & q & E & Tq & C & _)]; [left; exact E|right; exists (c, q); split; [exact E|split; assumption]]. Qed.

  Lemma mgkrec_ok fuel h j1 j2 A B : 20 <= n -> 10 <= h <= n / 2 -> tour n A -> tour n B ->
    mgkrec n dist fadd fsub eps fuel h j1 j2 A B = Diverge /\ stuck fuel \/ exists x y, mgkrec n dist fadd fsub eps fuel h j1 j2 A B = Ret (x, y) /\ good x /\ good y /\
      two_opt fuel (head_part h j1 B ++ tail_part (head_part h j1 B) A) = Ret x /\ two_opt fuel (head_part h j2 A ++ tail_part (head_part h j2 A) B) = Ret y.
  Proof using N.
    intros N20 Hh TA TB. assert (n / 2 <= n) by (apply Z.div_le_upper_bound; lia). unfold mgkrec. destruct (Z.ltb_spec (n / 2) 10); [lia|]. rewrite !child_ok by (assumption || lia). cbn [bind].
    destruct (two_opt_good fuel _ (child_parts h j1 B A TB TA ltac:(lia))) as [E|(x & E & Gx)]; [left; rewrite E; split; [reflexivity|eexists; split; [apply (child_parts h j1 B A TB TA); lia|exact E]]|]. rewrite E. cbn [bind].
    destruct (two_opt_good fuel _ (child_parts h j2 A B TA TB ltac:(lia))) as [E2|(y & E2 & Gy)]; [left; rewrite E2; split; [reflexivity|eexists; split; [apply (child_parts h j2 A B TA TB); lia|exact E2]]|]. rewrite E2. cbn [bind]. right. exists x, y. auto.
  Qed.

  Hypothesis finite : forall p c, tour n p -> cost p = Ret c -> c < inf.
  Definition ok (x : Z * list Z) : Prop := x = (inf, []) \/ good x.
  Definition real (x : Z * list Z) : bool := fst x <? inf.
  Lemma ok_real x : ok x -> real x = true <-> good x.
  Proof using finite. intros [->|G]; unfold real; cbn [fst]; rewrite Z.ltb_lt; [split; [lia|intros (T & C); apply (finite _ _ T C)]|]. split; [auto|]. intros (T & C). apply (finite _ _ T C). Qed.

  Definition le_cost (a b : Z * list Z) : Prop := fst a <= fst b.
  Lemma pop_sorted l : StronglySorted le_cost (sorted_list ind_less l).
  Proof using.
    clear. apply sorted_sorted; unfold le_cost.
    - intros x y. unfold ind_less. rewrite orb_true_iff, andb_true_iff, Z.ltb_lt, Z.eqb_eq. lia.
    - intros x y. unfold ind_less. rewrite orb_false_iff, Z.ltb_ge. lia.
    - intros x y z. lia.
  Qed.

  Definition count (l : list (Z * list Z)) : nat := length (filter real l).
  Lemma count_perm l l' : Permutation l l' -> count l = count l'.
  Proof using. clear. intros P. unfold count. induction P; cbn; [reflexivity|destruct (real x); cbn; congruence|destruct (real x), (real y); reflexivity|congruence]. Qed.
  Lemma sorted_prefix l : StronglySorted le_cost l -> forall m x, (m < count l)%nat -> nth_error l m = Some x -> real x = true.
  Proof using.
    clear. unfold count. induction 1 as [|a l S IH F]; intros m x C E; [cbn in C; lia|]. cbn [filter] in C. destruct (real a) eqn:Ra.
    - destruct m as [|m]; cbn in E; [congruence|]. apply (IH m); [cbn in C; lia|exact E].
    - exfalso. assert (X : filter real l = []). { clear - F Ra. induction F as [|b l Hb F IH]; cbn; [reflexivity|]. unfold real, le_cost in *. destruct (Z.ltb_spec (fst b) inf); [apply Z.ltb_ge in Ra; lia|exact IH]. } rewrite X in C. cbn in C. lia.
  Qed.

  Lemma nth_pyget {A} (l : list A) i x : 0 <= i < Z.of_nat (length l) -> nth_error l (Z.to_nat i) = Some x -> pyget l i = Ret x.
  Proof using. clear. intros H E. unfold pyget, pyidx. destruct (Z.leb_spec 0 i); [|lia]. destruct (Z.ltb_spec i (Z.of_nat (length l))); [|lia]. cbn [andb]. rewrite E. reflexivity. Qed.
  Lemma nth_pyset {A} (l : list A) i x : 0 <= i < Z.of_nat (length l) -> pyset l i x = Ret (upd l (Z.to_nat i) x).
  Proof using. clear. intros H. unfold pyset, pyidx. destruct (Z.leb_spec 0 i); [|lia]. destruct (Z.ltb_spec i (Z.of_nat (length l))); [|lia]. cbn [andb]. reflexivity. Qed.
  Lemma upd_nth_error {A} (l : list A) k x m : nth_error (upd l k x) m = if Nat.eqb m k then (if Nat.ltb k (length l) then Some x else None) else nth_error l m.
  Proof using. clear. revert k m. induction l as [|a l IH]; intros [|k] [|m]; cbn; try reflexivity; [destruct (Nat.eqb m k); reflexivity|]. rewrite IH. reflexivity. Qed.
  Lemma upd_Forall {A} (P : A -> Prop) l k x : Forall P l -> P x -> Forall P (upd l k x).
  Proof using. clear. intros F Px. revert k. induction F as [|a l Ha F IH]; intros [|k]; cbn; constructor; auto. Qed.

  Definition draws_ok (draw : Z -> Z * Z * Z) : Prop := forall i, 10 <= fst (fst (draw i)) <= n / 2.

  Lemma offspring_ok fuel draw popsize pop : 20 <= n -> draws_ok draw -> 1 <= popsize -> Z.of_nat (length pop) = 2 * popsize -> Forall ok pop ->
    (forall m x, (m < Z.to_nat popsize)%nat -> nth_error pop m = Some x -> good x) ->
    offspring n dist fadd fsub eps fuel draw popsize pop = Diverge /\ stuck fuel \/ exists pop', offspring n dist fadd fsub eps fuel draw popsize pop = Ret pop' /\ length pop' = length pop /\ Forall ok pop' /\
      forall m, (m < Z.to_nat popsize)%nat -> nth_error pop' m = nth_error pop m.
  Proof using N.
    intros N20 Dr Ps Lp Fp Gp. unfold offspring.
    assert (Half : 2 * (popsize / 2) <= popsize) by (apply Z.mul_div_le; lia). assert (Hp : 0 <= popsize / 2) by (apply Z.div_pos; lia). revert Half Hp. generalize (popsize / 2). intros hp.
    match goal with |- context [foldM ?F _ _] => set (f := F) end.
    intros Half Hp.
    enough (G : forall k : nat, 2 * Z.of_nat k <= popsize -> foldM f (zrange 0 (Z.of_nat k)) pop = Diverge /\ stuck fuel \/ exists pop', foldM f (zrange 0 (Z.of_nat k)) pop = Ret pop' /\ length pop' = length pop /\ Forall ok pop' /\ forall t, (t < Z.to_nat popsize)%nat -> nth_error pop' t = nth_error pop t) by (specialize (G (Z.to_nat hp)); rewrite Z2Nat.id in G by exact Hp; apply G; exact Half).
    induction k as [|k IH]; intros Hk.
    { right. exists pop. rewrite zrange_nil by lia. cbn. auto. }
    replace (Z.of_nat (Datatypes.S k)) with (Z.of_nat k + 1) by lia. rewrite zrange_snoc by lia. rewrite foldM_app. destruct IH as [(E & St)|(pop1 & E & L1 & F1 & S1)]; [lia|left; rewrite E; split; [reflexivity|exact St]|]. rewrite E. cbn [bind foldM]. unfold f.
    set (i := Z.of_nat k) in *. assert (Get : forall m, 0 <= m < popsize -> exists x, pyget pop1 m = Ret x /\ good x).
    { intros m Hm. destruct (nth_error pop (Z.to_nat m)) as [x|] eqn:X; [|apply nth_error_None in X; lia]. exists x. split; [apply nth_pyget; [lia|rewrite S1 by lia; exact X]|]. apply (Gp (Z.to_nat m)); [lia|exact X]. }
    destruct (Get (2 * i) ltac:(lia)) as ((c1 & p1) & -> & (T1 & _)). cbn [bind]. destruct (Get (2 * i + 1) ltac:(lia)) as ((c2 & p2) & -> & (T2 & _)). cbn [bind snd] in *. pose proof (Dr i) as Di. destruct (draw i) as ((h & j1) & j2). cbn [fst] in Di.
    destruct (mgkrec_ok fuel h j1 j2 p1 p2 N20 Di T1 T2) as [(M & St)|(x & y & M & Gx & Gy & _)]; rewrite M; cbn [bind]; [left; split; [reflexivity|exact St]|]. right.
    rewrite (nth_pyset pop1) by lia. cbn [bind]. rewrite nth_pyset by (rewrite upd_length; lia). cbn [bind]. eexists. split; [reflexivity|]. split; [rewrite !upd_length; exact L1|]. split; [apply upd_Forall; [apply upd_Forall; [exact F1|right; exact Gx]|right; exact Gy]|].
    intros t Ht. rewrite !upd_nth_error. destruct (Nat.eqb_spec t (Z.to_nat (popsize + 2 * i + 1))); [lia|]. destruct (Nat.eqb_spec t (Z.to_nat (popsize + 2 * i))); [lia|]. apply S1. exact Ht.
  Qed.

  Lemma count_prefix : forall (l : list (Z * list Z)) k, (k <= length l)%nat -> (forall m x, (m < k)%nat -> nth_error l m = Some x -> real x = true) -> (k <= count l)%nat.
  Proof using.
    clear. unfold count. induction l as [|a l IH]; intros [|k] L H; cbn [length] in L; try lia. cbn [filter]. rewrite (H 0%nat a) by (lia || reflexivity). cbn [length]. apply le_n_S. apply IH; [lia|]. intros m x Hm E. apply (H (Datatypes.S m)); [lia|exact E].
  Qed.

  Definition Inv (popsize best0 : Z) (s : list (Z * list Z) * Z * xbest) : Prop :=
    let '(pop, best, X) := s in
    Z.of_nat (length pop) = 2 * popsize /\ Forall ok pop /\ StronglySorted le_cost pop /\ (Z.to_nat popsize <= count pop)%nat /\
    (exists x, nth_error pop 0 = Some x /\ fst x = best) /\
    ((exists p, X = Path p /\ good (best, p) /\ best = best0) \/ (exists c p, X = Cost_and_path c p /\ good (c, p) /\ best <= c /\ best < best0)).

  Lemma sorted_head l x : StronglySorted le_cost l -> nth_error l 0 = Some x -> forall y, In y l -> fst x <= fst y.
  Proof using. clear. intros S E y Hy. destruct l as [|a l]; [discriminate|]. cbn in E. injection E as ->. inversion S; subst. destruct Hy as [->|Hy]; [lia|]. rewrite Forall_forall in H2. apply (H2 y Hy). Qed.

  Lemma generation_ok fuel draw popsize best0 s c : 20 <= n -> (forall c, draws_ok (draw c)) -> 1 <= popsize -> Inv popsize best0 s ->
    generation n dist fadd fsub eps fuel draw popsize s c = Diverge /\ stuck fuel \/ exists s', generation n dist fadd fsub eps fuel draw popsize s c = Ret s' /\ Inv popsize best0 s'.
  Proof using N finite.
    intros N20 Dr Ps. destruct s as ((pop & best) & X). intros (Lp & Fp & Sp & Cp & (x0 & E0 & B0) & HX). unfold generation.
    assert (Gp : forall m x, (m < Z.to_nat popsize)%nat -> nth_error pop m = Some x -> good x). { intros m x Hm E. rewrite Forall_forall in Fp. apply ok_real; [apply Fp; apply nth_error_In in E; exact E|]. apply (sorted_prefix pop Sp m); [lia|exact E]. }
    destruct (offspring_ok fuel (draw c) popsize pop N20 (Dr c) Ps Lp Fp Gp) as [(E & St)|(pop1 & E & L1 & F1 & S1)]; [left; rewrite E; split; [reflexivity|exact St]|right]. rewrite E. cbn [bind].
    set (pop2 := sorted_list ind_less pop1). pose proof (sorted_perm ind_less pop1) as P2. fold pop2 in P2. pose proof (pop_sorted pop1) as S2. fold pop2 in S2. pose proof (Permutation_length P2) as L2.
    assert (F2 : Forall ok pop2) by (rewrite Forall_forall in *; intros y Hy; apply F1; apply (Permutation_in y P2); exact Hy).
    assert (C2 : (Z.to_nat popsize <= count pop2)%nat). { rewrite (count_perm _ _ P2). apply count_prefix; [lia|]. intros m x Hm Em. rewrite S1 in Em by exact Hm. rewrite Forall_forall in Fp. apply ok_real; [apply Fp; apply nth_error_In in Em; exact Em|apply (Gp m); assumption]. }
    destruct (nth_error pop2 0) as [x|] eqn:X0; [|apply nth_error_None in X0; lia]. rewrite (nth_pyget pop2 0 x) by (lia || exact X0). cbn [bind]. destruct x as (cur & p0).
    assert (Cur : cur <= best). { rewrite <- B0. apply (sorted_head pop2 (cur, p0) S2 X0). apply (Permutation_in _ (Permutation_sym P2)). apply (nth_error_In pop1 0). rewrite S1 by lia. exact E0. }
    destruct (Z.ltb_spec cur best) as [Lt|Ge].
    - destruct (nth_error pop2 1) as [(c1 & p1)|] eqn:X1; [|apply nth_error_None in X1; lia]. rewrite (nth_pyget pop2 1 (c1, p1)) by (lia || exact X1). cbn [bind]. eexists. split; [reflexivity|].
      assert (Ps2 : 2 <= popsize). { destruct (Z.eq_dec popsize 1) as [->|]; [exfalso|lia]. unfold offspring in E. change (1 / 2) with 0 in E. rewrite zrange_nil in E by lia. cbn [foldM] in E. injection E as <-. assert (X2 : In (cur, p0) pop) by (apply (Permutation_in _ P2); apply (nth_error_In pop2 0); exact X0). pose proof (sorted_head pop x0 Sp E0 _ X2). cbn [fst] in *. lia. }
      assert (G1 : good (c1, p1)). { rewrite Forall_forall in F2. apply ok_real; [apply F2; apply (nth_error_In pop2 1); exact X1|]. apply (sorted_prefix pop2 S2 1); [lia|exact X1]. }
      split; [lia|]. split; [exact F2|]. split; [exact S2|]. split; [exact C2|]. split; [exists (cur, p0); auto|]. right. exists c1, p1. split; [reflexivity|]. split; [exact G1|]. split; [apply (sorted_head pop2 (cur, p0) S2 X0 (c1, p1)); apply (nth_error_In pop2 1); exact X1|].
      destruct HX as [(p & _ & _ & Eb)|(c' & p & _ & _ & _ & Lb)]; lia.
    - eexists. split; [reflexivity|]. split; [lia|]. split; [exact F2|]. split; [exact S2|]. split; [exact C2|]. split; [exists (cur, p0); split; [exact X0|cbn; lia]|exact HX].
  Qed.

  Lemma generations_ok fuel draw popsize best0 : 20 <= n -> (forall c, draws_ok (draw c)) -> 1 <= popsize -> forall cs s, Inv popsize best0 s ->
    foldM (generation n dist fadd fsub eps fuel draw popsize) cs s = Diverge /\ stuck fuel \/ exists s', foldM (generation n dist fadd fsub eps fuel draw popsize) cs s = Ret s' /\ Inv popsize best0 s'.
  Proof using N finite.
    intros N20 Dr Ps. induction cs as [|c cs IH]; intros s Hs; cbn [foldM]; [right; exists s; auto|]. destruct (generation_ok fuel draw popsize best0 s c N20 Dr Ps Hs) as [(E & St)|(s' & E & Hs')]; rewrite E; cbn [bind]; [left; auto|apply IH; exact Hs'].
  Qed.

  Lemma select_ok fuel shuffle popsize : (forall i, tour n (shuffle i)) ->
    select n dist fadd fsub eps fuel shuffle popsize = Diverge /\ stuck fuel \/
    exists pop, select n dist fadd fsub eps fuel shuffle popsize = Ret pop /\ Forall2 (fun i x => two_opt fuel (shuffle i) = Ret x /\ good x) (zrange 0 popsize) pop.
  Proof using N.
    intros Sh. unfold select. generalize (zrange 0 popsize). induction l as [|i l IH]; cbn [mapM]; [right; exists []; split; [reflexivity|constructor]|].
    destruct (two_opt_good fuel (shuffle i) (Sh i)) as [E|(x & E & G)]; rewrite E; cbn [bind]; [left; split; [reflexivity|exists (shuffle i); auto]|]. destruct IH as [(E' & St)|(pop & E' & F)]; rewrite E'; cbn [bind]; [left; auto|right]. exists (x :: pop). split; [reflexivity|]. constructor; auto.
  Qed.

  Lemma solve_ok fuel shuffle draw popsize cmax : 20 <= n -> (forall i, tour n (shuffle i)) -> (forall c, draws_ok (draw c)) -> 1 <= popsize ->
    solve n dist fadd fsub eps inf fuel shuffle draw popsize cmax = Diverge /\ stuck fuel \/
    exists best best0 X, solve n dist fadd fsub eps inf fuel shuffle draw popsize cmax = Ret (best, X) /\
      (exists i p, 0 <= i < popsize /\ two_opt fuel (shuffle i) = Ret (best0, p)) /\ (forall i c p, 0 <= i < popsize -> two_opt fuel (shuffle i) = Ret (c, p) -> best0 <= c) /\
      (exists q, good (best, q)) /\ best <= best0 /\
      ((exists p, X = Path p /\ good (best, p) /\ best = best0) \/ (exists c p, X = Cost_and_path c p /\ good (c, p) /\ best <= c /\ best < best0)).
  Proof using N finite.
    intros N20 Sh Dr Ps. unfold solve. destruct (select_ok fuel shuffle popsize Sh) as [(E & St)|(pop & E & F)]; rewrite E; cbn [bind]; [left; auto|].
    assert (Lp : length pop = Z.to_nat popsize) by (pose proof (zrange_length 0 popsize) as Lz; assert (length (zrange 0 popsize) = length pop) by (clear - F; induction F; cbn [length]; congruence); lia).
    assert (Gp : forall x, In x pop -> good x /\ exists i, 0 <= i < popsize /\ two_opt fuel (shuffle i) = Ret x).
    { intros x Hx. clear - F Hx. assert (B : forall i, In i (zrange 0 popsize) -> 0 <= i < popsize) by (intros i; apply zrange_In). revert B. induction F as [|i y l pop (T & G) F IH]; intros B; [contradiction|]. destruct Hx as [->|Hx]; [split; [exact G|exists i; split; [apply B; left; reflexivity|exact T]]|]. apply IH; [exact Hx|intros j Hj; apply B; right; exact Hj]. }
    assert (Ip : forall i x, 0 <= i < popsize -> two_opt fuel (shuffle i) = Ret x -> In x pop).
    { intros i x Hi T. apply zrange_In in Hi. clear - F Hi T. induction F as [|j y l pop (T' & G) F IH]; [contradiction|]. destruct Hi as [->|Hi]; [left; congruence|right; apply IH; exact Hi]. }
    set (all := pop ++ repeat (inf, []) (Z.to_nat popsize)). set (srt := sorted_list ind_less all). pose proof (sorted_perm ind_less all) as P. fold srt in P. pose proof (pop_sorted all) as S. fold srt in S. pose proof (Permutation_length P) as L. unfold all in L at 1. rewrite app_length, repeat_length, Lp in L.
    assert (Fa : Forall ok srt). { rewrite Forall_forall. intros y Hy. apply (Permutation_in y P) in Hy. apply in_app_or in Hy as [Hy|Hy]; [right; apply Gp; exact Hy|left; apply repeat_spec in Hy; exact Hy]. }
    assert (Cn : (Z.to_nat popsize <= count srt)%nat). { rewrite (count_perm _ _ P). apply count_prefix; [unfold all; rewrite app_length; lia|]. intros m x Hm Em. unfold all in Em. rewrite nth_error_app1 in Em by lia. apply ok_real; [right|]; apply Gp; apply nth_error_In in Em; exact Em. }
    destruct (nth_error srt 0) as [(b0 & p0)|] eqn:X0; [|apply nth_error_None in X0; lia]. rewrite (nth_pyget srt 0 (b0, p0)) by (lia || exact X0). cbn [bind].
    assert (R0 : real (b0, p0) = true) by (apply (sorted_prefix srt S 0); [lia|exact X0]).
    assert (G0 : good (b0, p0)) by (apply ok_real; [rewrite Forall_forall in Fa; apply Fa, (nth_error_In srt 0), X0|exact R0]).
    assert (I0 : In (b0, p0) pop). { pose proof (nth_error_In srt 0 X0) as H. apply (Permutation_in _ P) in H. apply in_app_or in H as [H|H]; [exact H|]. apply repeat_spec in H. injection H as -> _. unfold real in R0. cbn [fst] in R0. apply Z.ltb_lt in R0. lia. }
    destruct (generations_ok fuel draw popsize b0 N20 Dr Ps (zrange 0 cmax) (srt, b0, Path p0)) as [(E' & St)|(((pop' & best) & X) & E' & HI)].
    - split; [lia|]. split; [exact Fa|]. split; [exact S|]. split; [exact Cn|]. split; [exists (b0, p0); auto|]. left. exists p0. auto.
    - left. rewrite E'. auto.
    - right. rewrite E'. cbn [bind]. destruct HI as (L' & F' & S' & C' & (x & Ex & Bx) & HX). exists best, b0, X. split; [reflexivity|]. split; [destruct (Gp _ I0) as (_ & i & Hi & T); exists i, p0; auto|]. split.
      + intros i c p Hi T. pose proof (Ip i (c, p) Hi T) as H. apply (sorted_head srt (b0, p0) S X0 (c, p)). apply (Permutation_in _ (Permutation_sym P)). apply in_or_app. left. exact H.
      + split; [|split; [|exact HX]].
        * exists (snd x). rewrite <- Bx. replace (fst x, snd x) with x by (destruct x; reflexivity). rewrite Forall_forall in F'. apply ok_real; [apply F', (nth_error_In pop' 0), Ex|]. apply (sorted_prefix pop' S' 0); [lia|exact Ex].
        * destruct HX as [(p & _ & _ & Eb)|(c' & p & _ & _ & _ & Lb)]; lia.
  Qed.
End Pop.
