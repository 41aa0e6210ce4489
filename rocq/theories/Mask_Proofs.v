(** * Sets of vertices as bit masks *)
From Coq Require Import ZArith List Lia Bool Permutation.
From Verif Require Import Base Py Dict Lists2 Graph_Model Graph_Spec Graph_Proofs Trav_Model Trav_Proofs Cliq_Model Cliq_Spec Cliq_Proofs.
Import ListNotations.
Open Scope Z_scope.

(** The vertices of a mask, in the order of their bits. *)
Fixpoint decode (vs : list Z) (m : Z) : list Z :=
  match vs with
  | [] => []
  | v :: vs' => if Z.odd m then v :: decode vs' (Z.div2 m) else decode vs' (Z.div2 m)
  end.

Lemma odd_land a b : Z.odd (Z.land a b) = Z.odd a && Z.odd b.
Proof. rewrite <- !Z.bit0_odd. apply Z.land_spec. Qed.
Lemma odd_lor a b : Z.odd (Z.lor a b) = Z.odd a || Z.odd b.
Proof. rewrite <- !Z.bit0_odd. apply Z.lor_spec. Qed.
Lemma div2_land a b : Z.div2 (Z.land a b) = Z.land (Z.div2 a) (Z.div2 b).
Proof. rewrite !Z.div2_spec. apply Z.shiftr_land. Qed.
Lemma div2_lor a b : Z.div2 (Z.lor a b) = Z.lor (Z.div2 a) (Z.div2 b).
Proof. rewrite !Z.div2_spec. apply Z.shiftr_lor. Qed.

Lemma decode_incl vs : forall m x, In x (decode vs m) -> In x vs.
Proof.
  induction vs as [|v vs IH]; intros m x; cbn [decode]; [auto|]. destruct (Z.odd m); cbn [In]; intros H.
  - destruct H as [H|H]; [auto|right; eapply IH, H].
  - right. eapply IH, H.
Qed.
Lemma decode_nodup vs : NoDup vs -> forall m, NoDup (decode vs m).
Proof.
  induction 1 as [|v vs Nv N IH]; intros m; cbn [decode]; [constructor|]. destruct (Z.odd m); [|apply IH].
  constructor; [|apply IH]. intros I. apply Nv, (decode_incl vs _ _ I).
Qed.
Lemma decode_In vs : NoDup vs -> forall m x, In x (decode vs m) <-> exists i, nth_error vs i = Some x /\ Z.testbit m (Z.of_nat i) = true.
Proof.
  induction 1 as [|v vs Nv N IH]; intros m x; cbn [decode].
  - split; [intros []|intros ([|i] & H & _); discriminate].
  - assert (K : (exists i, nth_error vs i = Some x /\ Z.testbit (Z.div2 m) (Z.of_nat i) = true) <->
      exists i, nth_error (v :: vs) (S i) = Some x /\ Z.testbit m (Z.of_nat (S i)) = true).
    { split; intros (i & H1 & H2); exists i; (split; [exact H1|]).
      - rewrite Z.div2_spec, Z.shiftr_spec in H2 by lia. rewrite <- H2. f_equal. lia.
      - rewrite Z.div2_spec, Z.shiftr_spec by lia. rewrite <- H2. f_equal. lia. }
    destruct (Z.odd m) eqn:E; [cbn [In]|]; rewrite IH, K.
    + split.
      * intros [<-|(i & H)]; [exists 0%nat; split; [reflexivity|]|exists (S i); exact H]. cbn [Z.of_nat]. rewrite Z.bit0_odd. exact E.
      * intros ([|i] & H1 & H2); [left; cbn in H1; congruence|right; exists i; auto].
    + split.
      * intros (i & H). exists (S i). exact H.
      * intros ([|i] & H1 & H2); [|exists i; auto]. cbn [Z.of_nat] in H2. rewrite Z.bit0_odd in H2. congruence.
Qed.

Lemma decode_land vs : NoDup vs -> forall a b, decode vs (Z.land a b) = inter (decode vs a) (decode vs b).
Proof.
  induction 1 as [|v vs Nv N IH]; intros a b; cbn [decode]; [reflexivity|]. rewrite odd_land, div2_land, IH.
  assert (K : forall x, In x (decode vs (Z.div2 a)) -> mem x (decode vs (Z.div2 b)) = mem x (v :: decode vs (Z.div2 b))).
  { intros x Hx. cbn. destruct (Z.eqb_spec x v) as [->|]; [|reflexivity]. exfalso. apply Nv, (decode_incl vs _ _ Hx). }
  assert (M : mem v (decode vs (Z.div2 b)) = false) by (apply mem_false; intros I; apply Nv, (decode_incl vs _ _ I)).
  destruct (Z.odd a), (Z.odd b); cbn [andb]; unfold inter; cbn [filter].
  - cbn [mem existsb]. rewrite Z.eqb_refl. cbn [orb]. f_equal. apply filter_ext_in. exact K.
  - rewrite M. reflexivity.
  - apply filter_ext_in. exact K.
  - reflexivity.
Qed.

Lemma div2_even k : Z.div2 (2 * k) = k.
Proof. rewrite Z.div2_div, Z.mul_comm, Z.div_mul; lia. Qed.
Lemma div2_odd' k : Z.div2 (2 * k + 1) = k.
Proof. rewrite Z.div2_div, Z.mul_comm, Z.div_add_l by lia. cbn. lia. Qed.

Lemma odd_2k1 k : Z.odd (2 * k + 1) = true.
Proof. rewrite Z.add_comm, Z.odd_add_mul_2. reflexivity. Qed.
Lemma odd_2k k : Z.odd (2 * k) = false.
Proof. rewrite Z.odd_mul. reflexivity. Qed.

Lemma decode_0 vs : decode vs 0 = []. Proof. induction vs; cbn; auto. Qed.
Lemma decode_nil vs m : 0 <= m < 2 ^ Z.of_nat (length vs) -> decode vs m = [] -> m = 0.
Proof.
  revert m. induction vs as [|v vs IH]; intros m H E; cbn [decode length] in *; [change (2 ^ Z.of_nat 0) with 1 in H; lia|].
  rewrite Nat2Z.inj_succ, Z.pow_succ_r in H by lia. pose proof (Z.div2_odd m) as D. destruct (Z.odd m); [discriminate|].
  apply IH in E; [cbn [Z.b2z] in D; lia|]. cbn [Z.b2z] in D. lia.
Qed.
Lemma decode_all vs : decode vs (2 ^ Z.of_nat (length vs) - 1) = vs.
Proof.
  induction vs as [|v vs IH]; [reflexivity|]. cbn [decode length]. rewrite Nat2Z.inj_succ, Z.pow_succ_r by lia.
  set (p := 2 ^ Z.of_nat (length vs)) in *. replace (2 * p - 1) with (2 * (p - 1) + 1) by lia. rewrite odd_2k1, div2_odd', IH. reflexivity.
Qed.

(** The least bit set. *)
Lemma least_even k : Z.land (2 * k) (- (2 * k)) = 2 * Z.land k (- k).
Proof.
  replace (- (2 * k)) with (2 * - k) by lia. apply Z.bits_inj'. intros i Hi. rewrite Z.land_spec.
  destruct (Z.eq_dec i 0) as [->|Ni]; [rewrite !Z.testbit_even_0; reflexivity|].
  replace i with (Z.succ (i - 1)) by lia. rewrite !Z.testbit_even_succ, Z.land_spec by lia. reflexivity.
Qed.
Lemma clear_even k : Z.land (2 * k) (2 * k - 1) = 2 * Z.land k (k - 1).
Proof.
  replace (2 * k - 1) with (2 * (k - 1) + 1) by lia. apply Z.bits_inj'. intros i Hi. rewrite Z.land_spec.
  destruct (Z.eq_dec i 0) as [->|Ni]; [rewrite !Z.testbit_even_0; reflexivity|].
  replace i with (Z.succ (i - 1)) by lia. rewrite !Z.testbit_even_succ, Z.testbit_odd_succ, Z.land_spec by lia. reflexivity.
Qed.
Lemma least_odd k : Z.land (2 * k + 1) (- (2 * k + 1)) = 1.
Proof.
  replace (- (2 * k + 1)) with (2 * (- k - 1) + 1) by lia. apply Z.bits_inj'. intros i Hi. rewrite Z.land_spec.
  destruct (Z.eq_dec i 0) as [->|Ni]; [rewrite !Z.testbit_odd_0; reflexivity|].
  replace i with (Z.succ (i - 1)) by lia. rewrite !Z.testbit_odd_succ by lia.
  replace (- k - 1) with (Z.lnot k) by (unfold Z.lnot; lia). rewrite Z.lnot_spec by lia. rewrite andb_negb_r.
  change 1 with (2 * 0 + 1). rewrite Z.testbit_odd_succ by lia. rewrite Z.bits_0. reflexivity.
Qed.
Lemma clear_odd k : Z.land (2 * k + 1) (2 * k + 1 - 1) = 2 * k.
Proof.
  replace (2 * k + 1 - 1) with (2 * k) by lia. apply Z.bits_inj'. intros i Hi. rewrite Z.land_spec.
  destruct (Z.eq_dec i 0) as [->|Ni]; [rewrite Z.testbit_odd_0, Z.testbit_even_0; reflexivity|].
  replace i with (Z.succ (i - 1)) by lia. rewrite Z.testbit_odd_succ, !Z.testbit_even_succ by lia. apply andb_diag.
Qed.
Lemma least_bit vs : forall m, 0 < m < 2 ^ Z.of_nat (length vs) ->
  exists i v, nth_error vs i = Some v /\ Z.land m (- m) = 2 ^ Z.of_nat i /\
    decode vs m = v :: decode vs (Z.land m (m - 1)) /\ 0 <= Z.land m (m - 1) < 2 ^ Z.of_nat (length vs) /\
    Z.land m (m - 1) = m - 2 ^ Z.of_nat i /\ (exists k, 0 <= k /\ m = 2 ^ Z.of_nat i * (2 * k + 1)).
Proof.
  induction vs as [|v vs IH]; intros m H; cbn [length] in H; [change (2 ^ Z.of_nat 0) with 1 in H; lia|].
  rewrite Nat2Z.inj_succ, Z.pow_succ_r in H by lia. cbn [length]. rewrite Nat2Z.inj_succ, Z.pow_succ_r by lia.
  destruct (Z.Even_or_Odd m) as [[k ->]|[k ->]].
  - destruct (IH k) as (i & u & E1 & E2 & E3 & E4 & E5 & j & Hj & E6); [lia|]. exists (S i), u. split; [exact E1|].
    rewrite least_even, clear_even, E2, Nat2Z.inj_succ, Z.pow_succ_r by lia. split; [reflexivity|]. split; [|split; [lia|split; [lia|]]].
    + cbn [decode]. rewrite !odd_2k, !div2_even. exact E3.
    + exists j. split; [exact Hj|]. rewrite E6 at 1. ring.
  - exists 0%nat, v. split; [reflexivity|]. rewrite least_odd, clear_odd. split; [reflexivity|]. split; [|split; [lia|split; [cbn; lia|]]].
    + cbn [decode]. rewrite odd_2k1, odd_2k, div2_odd', div2_even. reflexivity.
    + exists k. split; [lia|]. change (2 ^ Z.of_nat 0) with 1. ring.
Qed.

Lemma decode_pow vs : forall i v, nth_error vs i = Some v -> decode vs (2 ^ Z.of_nat i) = [v].
Proof.
  induction vs as [|u vs IH]; intros [|i] v E; try discriminate; cbn in E.
  - injection E as ->. cbn. rewrite decode_0. reflexivity.
  - rewrite Nat2Z.inj_succ, Z.pow_succ_r by lia. cbn [decode]. rewrite odd_2k, div2_even. apply IH, E.
Qed.
Lemma decode_lor_In vs : NoDup vs -> forall a b x, In x (decode vs (Z.lor a b)) <-> In x (decode vs a) \/ In x (decode vs b).
Proof.
  intros N a b x. rewrite !(decode_In vs N). split.
  - intros (i & H1 & H2). rewrite Z.lor_spec in H2. apply orb_true_iff in H2 as [H2|H2]; [left|right]; eauto.
  - intros [(i & H1 & H2)|(i & H1 & H2)]; exists i; (split; [exact H1|]); rewrite Z.lor_spec, H2; [reflexivity|apply orb_true_r].
Qed.
(** A bit above all others. *)
Lemma decode_lor_high vs : forall i v u, nth_error vs i = Some v -> 0 <= u < 2 ^ Z.of_nat i ->
  decode vs (Z.lor u (2 ^ Z.of_nat i)) = decode vs u ++ [v].
Proof.
  induction vs as [|w vs IH]; intros [|i] v u E H; try discriminate; cbn in E.
  - injection E as ->. change (2 ^ Z.of_nat 0) with 1 in *. assert (u = 0) by lia. subst u. cbn. rewrite decode_0. reflexivity.
  - rewrite Nat2Z.inj_succ, Z.pow_succ_r in * by lia. cbn [decode]. rewrite odd_lor, div2_lor, odd_2k, orb_false_r, div2_even, IH with (v := v); [|exact E|pose proof (Z.div2_odd u); destruct (Z.odd u); cbn [Z.b2z] in *; lia].
    destruct (Z.odd u); reflexivity.
Qed.
Lemma lor_bound a b n : 0 <= a < 2 ^ n -> 0 <= b < 2 ^ n -> 0 <= Z.lor a b < 2 ^ n.
Proof.
  intros Ha Hb. assert (Hn : 0 <= n) by (destruct (Z.lt_ge_cases n 0); [rewrite Z.pow_neg_r in Ha by lia; lia|lia]).
  assert (H0 : 0 <= Z.lor a b) by (apply Z.lor_nonneg; lia). split; [exact H0|].
  destruct (Z.eq_dec (Z.lor a b) 0) as [->|N]; [apply Z.pow_pos_nonneg; lia|].
  apply Z.log2_lt_pow2; [lia|]. rewrite Z.log2_lor by lia.
  assert (La : a = 0 \/ 0 < a) by lia. assert (Lb : b = 0 \/ 0 < b) by lia.
  apply Z.max_lub_lt; [destruct La as [->|La]|destruct Lb as [->|Lb]].
  - cbn. destruct (Z.eq_dec n 0) as [->|]; [|lia]. assert (b = 0) by (cbn in Hb; lia). subst. cbn in N. congruence.
  - apply Z.log2_lt_pow2; lia.
  - cbn. destruct (Z.eq_dec n 0) as [->|]; [|lia]. assert (a = 0) by (cbn in Ha; lia). subst. cbn in N. congruence.
  - apply Z.log2_lt_pow2; lia.
Qed.
Lemma land_bound a b n : 0 <= a < 2 ^ n -> 0 <= Z.land a b < 2 ^ n.
Proof.
  intros Ha. assert (Hn : 0 <= n) by (destruct (Z.lt_ge_cases n 0); [rewrite Z.pow_neg_r in Ha by lia; lia|lia]).
  assert (H0 : 0 <= Z.land a b) by (apply Z.land_nonneg; lia). split; [exact H0|].
  enough (E : Z.land (Z.land a b) (Z.ones n) = Z.land a b).
  { rewrite Z.land_ones in E by lia. rewrite <- E. apply Z.mod_pos_bound, Z.pow_pos_nonneg; lia. }
  apply Z.bits_inj'. intros i Hi. rewrite !Z.land_spec. destruct (Z.lt_ge_cases i n).
  - rewrite Z.ones_spec_low by lia. apply andb_true_r.
  - rewrite Z.ones_spec_high by lia. rewrite andb_false_r. symmetry. apply andb_false_iff. left.
    destruct (Z.eq_dec a 0) as [->|Na]; [apply Z.bits_0|]. apply Z.bits_above_log2; [lia|]. enough (Z.log2 a < n) by lia. apply Z.log2_lt_pow2; lia.
Qed.

(** ** The dictionaries *)
Lemma bit_map_get vs : NoDup vs -> forall k i v, 0 <= k -> nth_error vs i = Some v -> dget (bit_map (2 ^ k) vs) v = Some (2 ^ (k + Z.of_nat i)).
Proof.
  induction 1 as [|u vs Nu N IH]; intros k [|i] v Hk E; try discriminate; cbn in E.
  - injection E as ->. cbn [bit_map dget]. rewrite Z.eqb_refl. do 2 f_equal. cbn. lia.
  - cbn [bit_map dget]. destruct (Z.eqb_spec u v) as [->|Nv]; [exfalso; apply Nu, (nth_error_In _ _ E)|].
    rewrite Z.shiftl_mul_pow2 by lia. replace (2 ^ k * 2 ^ 1) with (2 ^ (k + 1)) by (rewrite Z.pow_add_r by lia; reflexivity).
    rewrite (IH (k + 1) i v) by (lia || exact E). do 2 f_equal. lia.
Qed.
Lemma bit_inv_get vs : forall k i v, 0 <= k -> nth_error vs i = Some v ->
  dget (map (fun x => (snd x, fst x)) (bit_map (2 ^ k) vs)) (2 ^ (k + Z.of_nat i)) = Some v.
Proof.
  induction vs as [|u vs IH]; intros k [|i] v Hk E; try discriminate; cbn in E.
  - injection E as ->. cbn [bit_map map dget fst snd]. replace (k + Z.of_nat 0) with k by lia. rewrite Z.eqb_refl. reflexivity.
  - cbn [bit_map map dget fst snd]. destruct (Z.eqb_spec (2 ^ k) (2 ^ (k + Z.of_nat (S i)))) as [E'|_].
    + exfalso. apply Z.pow_inj_r in E'; lia.
    + rewrite Z.shiftl_mul_pow2 by lia. replace (2 ^ k * 2 ^ 1) with (2 ^ (k + 1)) by (rewrite Z.pow_add_r by lia; reflexivity).
      replace (k + Z.of_nat (S i)) with (k + 1 + Z.of_nat i) by lia. apply IH; [lia|exact E].
Qed.

Section Masks.
  Context (g : graph) (vs : list Z).
  Hypothesis Hg : undirected g.
  Hypothesis Nvs : NoDup vs.
  Hypothesis Hvs : forall v, In v vs <-> vertex g v.
  Notation n := (length vs).

  (** [nb] gives the mask of the neighbours of each vertex. *)
  Definition nb_ok (nb : list (Z * Z)) : Prop :=
    forall i v, nth_error vs i = Some v -> exists m, dget nb (2 ^ Z.of_nat i) = Some m /\ 0 <= m < 2 ^ Z.of_nat n /\
      forall x, In x (decode vs m) <-> In x (nbr g v).

  Lemma bit_of v : In v vs -> exists i, nth_error vs i = Some v /\ dget (bit_map 1 vs) v = Some (2 ^ Z.of_nat i).
  Proof.
    intros I. apply In_nth_error in I as (i & E). exists i. split; [exact E|]. change 1 with (2 ^ 0).
    rewrite (bit_map_get vs Nvs 0 i v) by (lia || exact E). reflexivity.
  Qed.
  Lemma idx_lt i v : nth_error vs i = Some v -> (i < n)%nat.
  Proof. intros E. apply nth_error_Some. congruence. Qed.
  Lemma pow_lt i v : nth_error vs i = Some v -> 0 <= 2 ^ Z.of_nat i < 2 ^ Z.of_nat n.
  Proof. intros E. apply idx_lt in E. split; [apply Z.pow_nonneg; lia|]. apply Z.pow_lt_mono_r; lia. Qed.

  Lemma bit_neighbors_ok : exists nb, bit_neighbors g vs = Ret nb /\ nb_ok nb.
  Proof.
    unfold bit_neighbors.
    destruct (foldM_inv (fun d u => do i <- dgetM (bit_map 1 vs) u; do a <- neighbors g u;
      do m <- foldM (fun m v => do j <- dgetM (bit_map 1 vs) v; Ret (Z.lor m j)) a 0; Ret (dset d i m))
      (fun pre nb => forall i v, nth_error vs i = Some v -> In v pre -> exists m, dget nb (2 ^ Z.of_nat i) = Some m /\ 0 <= m < 2 ^ Z.of_nat n /\
        forall x, In x (decode vs m) <-> In x (nbr g v)) vs []) as (nb & E & H).
    - intros i v _ [].
    - intros pre u post d Es IHd. assert (Iu : In u vs) by (rewrite Es; apply in_elt).
      destruct (bit_of u Iu) as (i & Ei & Eb). unfold dgetM at 1. rewrite Eb. cbn [bind].
      assert (Vu : vertex g u) by (apply Hvs, Iu). destruct (adj_row g Hg u Vu) as (a & Ea & _ & Ha).
      unfold neighbors, g_adj, dgetM at 1. rewrite Ea. cbn [bind].
      destruct (foldM_inv (fun m v => do j <- dgetM (bit_map 1 vs) v; Ret (Z.lor m j))
        (fun pre m => 0 <= m < 2 ^ Z.of_nat n /\ forall x, In x (decode vs m) <-> In x pre) (dkeys a) 0) as (m & Em & Hm & Hx).
      + split; [split; [lia|apply Z.pow_pos_nonneg; lia]|]. intros x. rewrite decode_0. reflexivity.
      + intros pre' v post' m Es' [Hm Hx]. assert (Vv : In v vs).
        { apply Hvs. destruct Hg as (_ & _ & C & _). apply (C u). apply Ha. rewrite Es'. apply in_elt. }
        destruct (bit_of v Vv) as (j & Ej & Ebj). unfold dgetM. rewrite Ebj. cbn [bind]. eexists. split; [reflexivity|].
        split; [apply lor_bound; [exact Hm|apply (pow_lt j v Ej)]|]. intros x. rewrite (decode_lor_In vs Nvs), Hx, (decode_pow vs j v Ej), in_app_iff. reflexivity.
      + rewrite Em. cbn [bind]. eexists. split; [reflexivity|]. intros i' v Ei' Iv. rewrite dget_dset.
        destruct (Z.eqb_spec (2 ^ Z.of_nat i) (2 ^ Z.of_nat i')) as [E'|E'].
        * apply Z.pow_inj_r in E'; [|lia|lia|lia]. apply Nat2Z.inj in E'. subst i'. assert (v = u) by congruence. subst v.
          exists m. split; [reflexivity|]. split; [exact Hm|]. intros x. rewrite Hx. unfold nbr. rewrite Ea. reflexivity.
        * apply (IHd i' v Ei'). apply in_app_or in Iv as [Iv|[<-|[]]]; [exact Iv|]. exfalso. apply E'. f_equal. f_equal.
          apply (proj1 (NoDup_nth_error vs) Nvs); [apply (idx_lt i u Ei)|congruence].
    - exists nb. split; [exact E|]. intros i v Ei. apply (H i v Ei). apply (nth_error_In _ _ Ei).
  Qed.

  Lemma inter_nb m v P : (forall x, In x (decode vs m) <-> In x (nbr g v)) -> inter P (decode vs m) = inter P (nbr g v).
  Proof.
    intros H. apply filter_ext. intros x. destruct (mem x (decode vs m)) eqn:E1, (mem x (nbr g v)) eqn:E2; try reflexivity.
    - apply mem_In, H in E1. apply mem_false in E2. contradiction.
    - apply mem_false in E1. apply mem_In, H in E2. contradiction.
  Qed.

  Definition inv_map : list (Z * Z) := map (fun x => (snd x, fst x)) (bit_map 1 vs).

  Lemma bits_to_vertices_ok : forall fuel m, 0 <= m < 2 ^ Z.of_nat n -> (length (decode vs m) <= fuel)%nat ->
    bits_to_vertices fuel inv_map m = Ret (decode vs m).
  Proof.
    induction fuel as [|fuel IH]; intros m Hm Hf; cbn [bits_to_vertices]; destruct (Z.eqb_spec m 0) as [->|N]; try (rewrite decode_0; reflexivity).
    - destruct (decode vs m) eqn:E; [|cbn in Hf; lia]. apply (decode_nil vs m Hm) in E. congruence.
    - destruct (least_bit vs m) as (i & v & E1 & E2 & E3 & E4 & _); [lia|]. rewrite E2, E3 in *.
      assert (Ed : dgetM inv_map (2 ^ Z.of_nat i) = Ret v).
      { unfold dgetM, inv_map. change 1 with (2 ^ 0). pose proof (bit_inv_get vs 0 i v ltac:(lia) E1) as K. cbn [Z.add] in K. rewrite K. reflexivity. }
      rewrite Ed. cbn [bind]. rewrite IH; [reflexivity|exact E4|cbn in Hf; lia].
  Qed.
End Masks.
