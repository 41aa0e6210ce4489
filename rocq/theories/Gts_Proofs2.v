(** * Proofs: two_opt *)
From Coq Require Import ZArith List Bool Lia Sorting.Sorted Sorting.Permutation.
From Verif Require Import Base Loop Py Sums Gts_Spec Gts_Model Gts_Proofs.
Import ListNotations.
Open Scope Z_scope.

(** Sorting. *)
Section Sort.
  Context {A : Type} (ltb : A -> A -> bool).
  Lemma ins_perm x l : Permutation (ins ltb x l) (x :: l).
  Proof using. induction l as [|y l IH]; cbn [ins]; [reflexivity|]. destruct (ltb x y); [reflexivity|]. rewrite IH. apply perm_swap. Qed.
  Lemma sorted_perm l : Permutation (sorted_list ltb l) l.
  Proof using. induction l as [|x l IH]; cbn [sorted_list fold_right]; [constructor|]. rewrite ins_perm. constructor. exact IH. Qed.
  Context (R : A -> A -> Prop).
  Hypothesis R1 : forall x y, ltb x y = true -> R x y.
  Hypothesis R2 : forall x y, ltb x y = false -> R y x.
  Hypothesis R3 : forall x y z, R x y -> R y z -> R x z.
  Lemma sorted_sorted l : StronglySorted R (sorted_list ltb l).
  Proof using R1 R2 R3.
    induction l as [|x l IH]; cbn [sorted_list fold_right]; [constructor|]. fold (sorted_list ltb l). revert IH. generalize (sorted_list ltb l). intros s S. induction S as [|y s S IH F]; cbn [ins]; [constructor; constructor|].
    destruct (ltb x y) eqn:E.
    - constructor; [constructor; assumption|]. constructor; [apply R1; exact E|]. rewrite Forall_forall in *. intros z Hz. apply R3 with y; auto.
    - constructor; [exact IH|]. rewrite Forall_forall in *. intros z Hz. apply (Permutation_in z (ins_perm x s)) in Hz. destruct Hz as [<-|Hz]; auto.
  Qed.
End Sort.

Lemma StronglySorted_app_l {A} (R : A -> A -> Prop) l1 x l2 : StronglySorted R (l1 ++ x :: l2) -> forall y, In y l1 -> R y x.
Proof. induction l1 as [|z l1 IH]; cbn; intros S y Hy; [contradiction|]. inversion S; subst. destruct Hy as [<-|Hy]; [|apply IH; assumption]. rewrite Forall_forall in H2. apply H2. apply in_or_app. right. left. reflexivity. Qed.

Lemma firstn_subset {A} (x : A) : forall l k, In x (firstn k l) -> In x l.
Proof. induction l as [|y l IH]; intros [|k] H; cbn in H; try contradiction. destruct H as [->|H]; [left; reflexivity|right; apply (IH k); exact H]. Qed.

Lemma NoDup_app_fst {A} (l1 l2 : list A) : NoDup (l1 ++ l2) -> NoDup l1.
Proof. induction l1 as [|x l1 IH]; cbn; intros H; [constructor|]. inversion H; subst. constructor; [intros X; apply H2; apply in_or_app; left; exact X|apply IH; assumption]. Qed.

Lemma index_of_ok x : forall l, In x l -> exists k, index_of x l = Ret k /\ 0 <= k < zlen l /\ rd l k = x.
Proof.
  induction l as [|y l IH]; intros H; [contradiction|]. cbn [index_of]. destruct (Z.eqb_spec x y) as [->|N].
  - exists 0. split; [reflexivity|]. unfold zlen. cbn [length]. split; [lia|reflexivity].
  - destruct H as [->|H]; [congruence|]. destruct (IH H) as (k & -> & B & R). exists (1 + k). split; [reflexivity|]. unfold zlen in *. cbn [length]. split; [lia|]. rewrite rd_nth in * by lia. replace (Z.to_nat (1 + k)) with (Datatypes.S (Z.to_nat k)) by lia. exact R.
Qed.

Section TSP.
  Context (n : Z) (dist : Z -> Z -> Z) (fadd fsub : Z -> Z -> Z) (eps inf : Z).
  Notation neighbors := (neighbors n dist).
  Notation cost := (cost n dist fadd).
  Notation scan := (scan n dist fadd fsub eps).
  Notation opt_step := (opt_step n dist fadd fsub eps).
  Notation two_opt := (two_opt n dist fadd fsub eps).

  Lemma tour_len p : 0 <= n -> tour n p -> zlen p = n.
  Proof using. clear. intros H T. apply Permutation_length in T. rewrite zrange_length in T. unfold zlen. lia. Qed.
  Lemma tour_In p x : tour n p -> In x p <-> 0 <= x < n.
  Proof using. clear. intros T. rewrite <- zrange_In. split; apply Permutation_in; [exact T|apply Permutation_sym, T]. Qed.
  Lemma tour_rd p i : tour n p -> 0 <= i < n -> 0 <= rd p i < n.
  Proof using. clear. intros T H. apply (tour_In p _ T). rewrite rd_nth by lia. apply nth_In. pose proof (tour_len p ltac:(lia) T). unfold zlen in *. lia. Qed.
  Lemma tour_NoDup p : tour n p -> NoDup p.
  Proof using. clear. intros T. apply (Permutation_NoDup (Permutation_sym T)). apply zrange_NoDup. Qed.
  Lemma tour_inj p i j : tour n p -> 0 <= i < n -> 0 <= j < n -> rd p i = rd p j -> i = j.
  Proof using.
    clear. intros T I J E. pose proof (tour_len p ltac:(lia) T) as L. unfold zlen in L. rewrite !rd_nth in E by lia. pose proof (proj1 (NoDup_nth p 0) (tour_NoDup p T) (Z.to_nat i) (Z.to_nat j) ltac:(lia) ltac:(lia) E). lia.
  Qed.

  Lemma neighbors_In x dy y : In (dy, y) (neighbors x) -> 0 <= y < n /\ y <> x /\ dy = dist x y.
  Proof using.
    clear. intros H. unfold Gts_Model.neighbors in H. apply firstn_subset in H. apply (Permutation_in _ (sorted_perm pair_less _)) in H. apply in_map_iff in H as (j & E & Hj). injection E as <- <-. apply filter_In in Hj as (Hj & Nj). apply zrange_In in Hj.
    destruct (Z.eqb_spec x j); [discriminate|]. auto.
  Qed.

  Lemma neighbors_complete x y : 0 <= x < n -> among_nearest n dist (Z.min n 20) x y -> In (dist x y, y) (neighbors x).
  Proof using.
    clear. intros Hx (Hy & Ny & C). unfold Gts_Model.neighbors. set (L := map (fun j => (dist x j, j)) (filter (fun j => negb (x =? j)) (zrange 0 n))). set (K := Z.min n 20) in *.
    assert (In_L : In (dist x y, y) L). { apply in_map_iff. exists y. split; [reflexivity|]. apply filter_In. split; [apply zrange_In; exact Hy|]. destruct (Z.eqb_spec x y); [congruence|reflexivity]. }
    assert (ND : NoDup L). { apply (NoDup_map_inv snd). unfold L. rewrite map_map. cbn [snd]. rewrite map_id. apply NoDup_filter, zrange_NoDup. }
    pose proof (sorted_perm pair_less L) as P. assert (S : StronglySorted (fun a b => a = b \/ pair_less a b = true) (sorted_list pair_less L)).
    { apply sorted_sorted.
      - auto.
      - intros (a & i) (b & j). unfold pair_less. cbn [fst snd]. intros E. apply orb_false_iff in E as (E1 & E2). apply Z.ltb_ge in E1. destruct (Z.eqb_spec a b) as [->|N]; cbn in E2; [|right; apply orb_true_iff; left; apply Z.ltb_lt; lia].
        apply Z.ltb_ge in E2. destruct (Z.eq_dec i j) as [->|]; [left; reflexivity|right]. apply orb_true_iff. right. rewrite Z.eqb_refl. apply Z.ltb_lt. lia.
      - intros (a & i) (b & j) (c & k) [H1|H1] [H2|H2]; [left; congruence|right; rewrite H1; exact H2|right; rewrite <- H2; exact H1|right]. unfold pair_less in *. cbn [fst snd] in *. apply orb_true_iff. apply orb_true_iff in H1, H2.
        rewrite andb_true_iff, Z.ltb_lt, Z.eqb_eq, Z.ltb_lt in *. lia. }
    assert (In_S : In (dist x y, y) (sorted_list pair_less L)) by (apply (Permutation_in _ (Permutation_sym P)); exact In_L).
    apply in_split in In_S as (l1 & l2 & E). rewrite E in *. pose proof (StronglySorted_app_l _ _ _ _ S) as Sm.
    assert (NDs : NoDup (l1 ++ (dist x y, y) :: l2)) by (apply (Permutation_NoDup (Permutation_sym P)); exact ND).
    set (F := filter (fun z => negb (z =? x) && nearer dist x z y) (zrange 0 n)) in *.
    assert (Len : (length l1 <= length F)%nat).
    { unfold F. rewrite <- (map_length snd l1). apply NoDup_incl_length.
      - apply NoDup_app_fst in NDs. assert (In1 : forall e, In e l1 -> e = (dist x (snd e), snd e)). { intros e He. assert (X : In e L) by (apply (Permutation_in _ P); apply in_or_app; left; exact He). apply in_map_iff in X as (j & <- & _). reflexivity. }
        clear - NDs In1. induction l1 as [|e l1 IH]; cbn; [constructor|]. inversion NDs; subst. constructor; [|apply IH; [assumption|intros f Hf; apply In1; right; exact Hf]]. intros X. apply in_map_iff in X as (f & X & Hf). apply H1. rewrite (In1 e (or_introl eq_refl)). rewrite <- X. rewrite <- (In1 f (or_intror Hf)). exact Hf.
      - intros z Hz. apply in_map_iff in Hz as (e & <- & He). assert (X : In e L) by (apply (Permutation_in _ P); apply in_or_app; left; exact He). apply in_map_iff in X as (j & <- & Hj). cbn [snd]. apply filter_In in Hj as (Hj & Nj). apply filter_In. split; [exact Hj|].
        destruct (Z.eqb_spec x j); [discriminate|]. destruct (Z.eqb_spec j x); [congruence|]. cbn [negb andb]. destruct (Sm _ He) as [Y|Y]; [exfalso; injection Y as _ ->; apply (NoDup_remove_2 _ _ _ NDs); apply in_or_app; left; exact He|]. exact Y. }
    rewrite firstn_app. apply in_or_app. right. replace (Z.to_nat K - length l1)%nat with (Datatypes.S (Z.to_nat K - length l1 - 1)) by lia. left. reflexivity.
  Qed.

  (** The change of the tour considered for positions i and k. *)
  Definition gain (p : list Z) (i k : Z) : Z :=
    fsub (fsub (fadd (dist (at_ n p i) (at_ n p (i + 1))) (dist (at_ n p (k - 1)) (at_ n p k))) (dist (at_ n p (i + 1)) (at_ n p k))) (dist (at_ n p i) (at_ n p (k - 1))).

  Lemma at_rd p i : 0 < n -> at_ n p i = rd p (i mod n).
  Proof using. clear. intros H. unfold at_. rewrite rd_nth by (apply Z.mod_pos_bound; exact H). reflexivity. Qed.

  Lemma scan_ok p i : 0 < n -> tour n p -> 0 <= i < n -> forall row, (forall dy y, In (dy, y) row -> 0 <= y < n /\ y <> at_ n p (i + 1) /\ dy = dist (at_ n p (i + 1)) y) ->
    StronglySorted (fun a b => fst a <= fst b) row ->
    (scan p i (at_ n p i) (dist (at_ n p i) (at_ n p (i + 1))) row = Ret None /\
       forall k, 0 <= k < n -> In (dist (at_ n p (i + 1)) (at_ n p k), at_ n p k) row -> dist (at_ n p (i + 1)) (at_ n p k) < dist (at_ n p i) (at_ n p (i + 1)) -> gain p i k <= eps) \/
    exists k p', 0 <= k < n /\ k <> (i + 1) mod n /\ dist (at_ n p (i + 1)) (at_ n p k) < dist (at_ n p i) (at_ n p (i + 1)) /\ eps < gain p i k /\ rev_path p k i = Ret p' /\
      scan p i (at_ n p i) (dist (at_ n p i) (at_ n p (i + 1))) row = Ret (Some p').
  Proof using.
    intros N T I. pose proof (tour_len p ltac:(lia) T) as L. induction row as [|(dy, y) row IH]; intros B S; cbn [Gts_Model.scan].
    - left. split; [reflexivity|]. intros k _ X. contradiction.
    - destruct (B dy y (or_introl eq_refl)) as (Hy & Ny & ->). inversion S as [|? ? S' F]; subst. destruct (Z.leb_spec (dist (at_ n p i) (at_ n p (i + 1))) (dist (at_ n p (i + 1)) y)) as [C|C].
      + left. split; [reflexivity|]. intros k Hk Ik Lk. exfalso. destruct Ik as [E|Ik]; [injection E as E _; lia|]. rewrite Forall_forall in F. specialize (F _ Ik). cbn [fst] in F. lia.
      + destruct (index_of_ok y p) as (k & -> & Hk & Rk); [apply (tour_In p y T); exact Hy|]. cbn [bind]. rewrite L in Hk. rewrite (rd_get p ((k - 1) mod n)) by (rewrite L; apply Z.mod_pos_bound; exact N). cbn [bind].
        assert (Ak : at_ n p k = y) by (rewrite at_rd by exact N; rewrite Z.mod_small by lia; exact Rk). rewrite <- (at_rd p (k - 1) N). clear Rk. subst y. set (xj := at_ n p (i + 1)) in *.
        change (fsub (fsub (fadd (dist (at_ n p i) xj) (dist (at_ n p (k - 1)) (at_ n p k))) (dist xj (at_ n p k))) (dist (at_ n p i) (at_ n p (k - 1)))) with (gain p i k).
        destruct (Z.ltb_spec eps (gain p i k)) as [G|G].
        * right. destruct (rev_path_ok n p k i L Hk I) as (p' & E & _). exists k, p'. split; [exact Hk|]. split; [|split; [exact C|split; [exact G|split; [exact E|rewrite E; reflexivity]]]].
          intros X. apply Ny. rewrite X. unfold xj. rewrite !at_rd by exact N. rewrite Z.mod_mod by lia. reflexivity.
        * destruct IH as [(E & H)|H]; [intros dy y Hyy; apply B; right; exact Hyy|exact S'|left|right; exact H]. split; [exact E|]. intros k' Hk' [X|X] Lk'; [|apply H; assumption].
          injection X as X1 X2. assert (k' = k). { apply (tour_inj p k' k T Hk' Hk). rewrite !at_rd in X2 by exact N. rewrite !Z.mod_small in X2 by lia. symmetry. exact X2. } subst k'. exact G.
  Qed.

  Lemma neighbors_sorted x : StronglySorted (fun a b => fst a <= fst b) (neighbors x).
  Proof using.
    clear. unfold Gts_Model.neighbors. match goal with |- StronglySorted _ (firstn ?k ?l) => assert (S : StronglySorted (fun a b : Z * Z => fst a <= fst b) l); [|revert S; generalize l; generalize k] end.
    - apply sorted_sorted.
      + intros (a & i) (b & j). unfold pair_less. cbn. rewrite orb_true_iff, andb_true_iff, Z.ltb_lt, Z.eqb_eq. lia.
      + intros (a & i) (b & j). unfold pair_less. cbn. rewrite orb_false_iff, Z.ltb_ge. lia.
      + intros x0 y z. lia.
    - intros k l S. revert k. induction S as [|a l S IH F]; intros [|k]; cbn; try constructor; [apply IH|]. rewrite Forall_forall in *. intros y Hy. apply F. apply firstn_subset in Hy. exact Hy.
  Qed.

  (** No listed move improves the tour at the first i positions. *)
  Definition optimal_to (p : list Z) (m : Z) : Prop := forall i k, 0 <= i < m -> 0 <= k < n -> among_nearest n dist (Z.min n 20) (at_ n p (i + 1)) (at_ n p k) ->
    dist (at_ n p (i + 1)) (at_ n p k) < dist (at_ n p i) (at_ n p (i + 1)) -> gain p i k <= eps.

  Lemma round_ok p i : 0 < n -> tour n p -> 0 <= i < n -> optimal_to p i ->
    (opt_step (p, i) = inl (p, i + 1) /\ optimal_to p (i + 1)) \/
    exists k p', 0 <= k < n /\ k <> (i + 1) mod n /\ dist (at_ n p (i + 1)) (at_ n p k) < dist (at_ n p i) (at_ n p (i + 1)) /\ eps < gain p i k /\ rev_path p k i = Ret p' /\ opt_step (p, i) = inl (p', 0).
  Proof using.
    intros N T I O. pose proof (tour_len p ltac:(lia) T) as L. unfold Gts_Model.opt_step. destruct (Z.ltb_spec i n); [|lia]. unfold opt_round. rewrite (rd_get p i) by lia. cbn [bind]. rewrite (rd_get p ((i + 1) mod n)) by (rewrite L; apply Z.mod_pos_bound; exact N). cbn [bind].
    replace (rd p i) with (at_ n p i) by (rewrite at_rd by exact N; rewrite Z.mod_small by lia; reflexivity). rewrite <- (at_rd p (i + 1) N). set (xj := at_ n p (i + 1)).
    assert (Hx : 0 <= xj < n) by (unfold xj; rewrite at_rd by exact N; apply tour_rd; [exact T|apply Z.mod_pos_bound; exact N]).
    assert (Row : pyget (nearest_neighbors n dist) xj = Ret (neighbors xj)).
    { unfold nearest_neighbors, pyget, pyidx. rewrite map_length, zrange_length. replace (n - 0) with n by ring. rewrite Z2Nat.id by lia. destruct (Z.leb_spec 0 xj); [|lia]. destruct (Z.ltb_spec xj n); [|lia]. cbn [andb].
      rewrite nth_error_map. rewrite (nth_error_nth' _ 0) by (rewrite zrange_length; lia). rewrite zrange_nth by lia. cbn [option_map]. f_equal. f_equal. lia. }
    rewrite Row. cbn [bind]. destruct (scan_ok p i N T I (neighbors xj)) as [(E0 & H1)|(k & p' & Hk & Nk & C & G & E & E0)].
    - intros dy y Hy. apply neighbors_In. exact Hy.
    - apply neighbors_sorted.
    - left. fold xj in E0. rewrite E0. split; [reflexivity|]. intros i' k Hi Hk A Lk. destruct (Z.eq_dec i' i) as [->|]; [|apply O; [lia|assumption|assumption|assumption]]. apply H1; [exact Hk| |exact Lk]. apply neighbors_complete; assumption.
    - right. exists k, p'. fold xj in E0. rewrite E0. cbn [bind]. auto 10.
  Qed.

  Lemma cost_ok p : 0 < n -> tour n p -> exists c, cost p = Ret c.
  Proof using.
    intros N T. pose proof (tour_len p ltac:(lia) T) as L. unfold Gts_Model.cost. rewrite (rd_get p 0) by lia. cbn [bind].
    assert (X : pyget p (-1) = Ret (rd p (n - 1))). { unfold pyget, pyidx. unfold zlen in L. destruct (Z.leb_spec 0 (-1)); [lia|]. cbn [andb]. replace ((- Z.of_nat (length p) <=? -1) && (-1 <? 0)) with true by (symmetry; apply andb_true_iff; split; [apply Z.leb_le; lia|reflexivity]).
      rewrite (nth_error_nth' _ 0) by lia. rewrite rd_nth by lia. f_equal. f_equal. lia. }
    rewrite X. cbn [bind]. destruct (foldM_range (fun total i => do a <- pyget p i; do b <- pyget p (i + 1); Ret (fadd total (dist a b))) (fun _ _ => True) 0 (n - 1) (dist (rd p 0) (rd p (n - 1))) ltac:(lia) Logic.I) as (c & E & _); [|exists c; exact E].
    intros i s Hi _. rewrite (rd_get p i), (rd_get p (i + 1)) by lia. cbn [bind]. eexists. split; [reflexivity|exact Logic.I].
  Qed.

  Definition optimal (p : list Z) : Prop := optimal_to p n.

  Lemma two_opt_sound fuel p : 0 < n -> tour n p -> two_opt fuel p = Diverge \/ exists c q, two_opt fuel p = Ret (c, q) /\ tour n q /\ cost q = Ret c /\ optimal q.
  Proof using.
    intros N T. unfold Gts_Model.two_opt.
    destruct (run_partial opt_step (fun '(q, i) => tour n q /\ 0 <= i <= n /\ optimal_to q i) (fun r => exists q, r = Ret q /\ tour n q /\ optimal q)) with (n := fuel) (s := (p, 0)) as [E|(q & E & Tq & O)].
    - intros (q & i) (Tq & I & O). destruct (Z.lt_ge_cases i n) as [C|C].
      + destruct (round_ok q i N Tq ltac:(lia) O) as [(-> & O')|(k & p' & Hk & Nk & _ & _ & E & ->)]; [split; [exact Tq|split; [lia|exact O']]|].
        split; [|split; [lia|intros i' k' Hi; lia]]. unfold tour. rewrite <- Tq. apply (rev_path_perm n q k i); [apply tour_len; [lia|exact Tq]|exact Hk|lia|exact E].
      + unfold Gts_Model.opt_step. destruct (Z.ltb_spec i n); [lia|]. exists q. split; [reflexivity|]. split; [exact Tq|]. assert (i = n) by lia. subst i. exact O.
    - split; [exact T|]. split; [lia|]. intros i k Hi. lia.
    - left. rewrite E. reflexivity.
    - right. rewrite E. cbn [bind]. destruct (cost_ok q N Tq) as (c & Ec). rewrite Ec. exists c, q. cbn [bind]. auto.
  Qed.
End TSP.
