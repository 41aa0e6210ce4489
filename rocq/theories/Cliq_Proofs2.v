(** * Bron-Kerbosch with bit masks *)
From Coq Require Import ZArith List Lia Bool Permutation.
From Verif Require Import Base Py Dict Gen Lists Lists2 Graph_Model Graph_Spec Graph_Proofs Trav_Model Trav_Proofs Cliq_Model Cliq_Spec Cliq_Proofs Mask_Proofs.
Import ListNotations.
Open Scope Z_scope.

Lemma discard_head v l : NoDup (v :: l) -> discard (v :: l) v = l.
Proof.
  intros N. inversion_clear N as [|? ? Nv _]. unfold discard. cbn [filter]. rewrite Z.eqb_refl. cbn [negb].
  rewrite (filter_ext_in _ (fun _ => true)).
  - clear. induction l as [|x l IH]; cbn; [reflexivity|]. rewrite IH. reflexivity.
  - intros x Hx. destruct (Z.eqb_spec x v) as [->|]; [contradiction|reflexivity].
Qed.

(** The bits of a mask after clearing the least one are above it. *)
Lemma cleared_bits m i k j : 0 <= k -> m = 2 ^ Z.of_nat i * (2 * k + 1) -> Z.testbit (m - 2 ^ Z.of_nat i) j = true -> Z.of_nat i < j.
Proof.
  intros Hk -> H. replace (2 ^ Z.of_nat i * (2 * k + 1) - 2 ^ Z.of_nat i) with (k * 2 ^ (Z.of_nat i + 1)) in H by (rewrite Z.pow_add_r by lia; ring).
  destruct (Z.lt_ge_cases (Z.of_nat i) j) as [L|L]; [exact L|]. rewrite Z.mul_pow2_bits_low in H by lia. discriminate.
Qed.
Lemma least_is_set m i k : 0 <= k -> m = 2 ^ Z.of_nat i * (2 * k + 1) -> Z.testbit m (Z.of_nat i) = true.
Proof. intros Hk ->. rewrite Z.mul_comm, Z.mul_pow2_bits by lia. rewrite Z.sub_diag. apply Z.testbit_odd_0. Qed.

Section Binary.
  Context (g : graph) (vs : list Z).
  Hypothesis Hg : undirected g.
  Hypothesis Nvs : NoDup vs.
  Hypothesis Hvs : forall v, In v vs <-> vertex g v.
  Notation n := (length vs).
  Context (nb : list (Z * Z)).
  Hypothesis Hnb : nb_ok g vs nb.

  Definition below (used m : Z) : Prop := forall j, Z.testbit m j = true -> used < 2 ^ j.

  Lemma below_land used a b : below used a -> below used (Z.land a b).
  Proof. intros H j Hj. rewrite Z.land_spec in Hj. apply andb_true_iff in Hj. apply H, Hj. Qed.
  Lemma below_step used m i k : 0 <= used -> below used m -> 0 <= k -> m = 2 ^ Z.of_nat i * (2 * k + 1) ->
    below used (m - 2 ^ Z.of_nat i) /\ below (Z.lor used (2 ^ Z.of_nat i)) (m - 2 ^ Z.of_nat i) /\ used < 2 ^ Z.of_nat i.
  Proof.
    intros Hu HB Hk Em. pose proof (HB _ (least_is_set m i k Hk Em)) as Hlt.
    assert (K : below (Z.lor used (2 ^ Z.of_nat i)) (m - 2 ^ Z.of_nat i)).
    { intros j Hj. pose proof (cleared_bits m i k j Hk Em Hj) as Hij.
      assert (P : 2 ^ (Z.of_nat i + 1) <= 2 ^ j) by (apply Z.pow_le_mono_r; lia).
      enough (Z.lor used (2 ^ Z.of_nat i) < 2 ^ (Z.of_nat i + 1)) by lia. apply lor_bound; rewrite Z.pow_add_r by lia; [lia|].
      pose proof (Z.pow_pos_nonneg 2 (Z.of_nat i)). lia. }
    split; [|split; [exact K|exact Hlt]]. intros j Hj. pose proof (cleared_bits m i k j Hk Em Hj) as Hij.
    assert (P : 2 ^ Z.of_nat i <= 2 ^ j) by (apply Z.pow_le_mono_r; lia). lia.
  Qed.

  Definition first_of (r l : list Z) : Z := hd 0 l.

  Lemma bk_loop_ext pick fuel : forall R P X X', same_elements X X' -> bk_loop g pick fuel R P X = bk_loop g pick fuel R P X'.
  Proof.
    induction fuel as [|fuel IH]; intros R P X X' E; [reflexivity|]. cbn [bk_loop]. destruct P as [|p P]; [reflexivity|].
    set (u := pick R (p :: P)).
    assert (E' : same_elements (inter X (nbr g u)) (inter X' (nbr g u))) by (intros x; rewrite !inter_In, (E x); reflexivity).
    f_equal.
    - destruct (inter (discard (p :: P) u) (nbr g u)); [|apply IH, E'].
      destruct (inter X (nbr g u)) as [|a l] eqn:E1, (inter X' (nbr g u)) as [|b l'] eqn:E2; try reflexivity.
      + exfalso. apply (E' b). left. reflexivity.
      + exfalso. apply (E' a). left. reflexivity.
      + apply IH, E'.
    - apply IH. intros x. cbn. rewrite (E x). reflexivity.
  Qed.

  Lemma bkb_loop_ok : forall fuel used allowed forb, 0 <= used < 2 ^ Z.of_nat n -> 0 <= allowed < 2 ^ Z.of_nat n ->
    0 <= forb < 2 ^ Z.of_nat n -> below used allowed -> (length (decode vs allowed) <= fuel)%nat ->
    bkb_loop nb (inv_map vs) n fuel used allowed forb =
      Ret (bk_loop g first_of fuel (decode vs used) (decode vs allowed) (decode vs forb)).
  Proof.
    induction fuel as [|fuel IH]; intros used allowed forb Hu Ha Hf HB HF; cbn [bkb_loop bk_loop];
      destruct (Z.eqb_spec allowed 0) as [->|Na]; try (rewrite ?decode_0; reflexivity).
    - destruct (decode vs allowed) eqn:E; [|cbn in HF; lia]. apply (decode_nil vs allowed Ha) in E. congruence.
    - destruct (least_bit vs allowed) as (i & v & E1 & E2 & E3 & E4 & E5 & k & Hk & E6); [lia|]. rewrite E2.
      pose proof (decode_nodup vs Nvs allowed) as Nd. rewrite E3 in Nd, HF |- *. cbn [first_of hd]. rewrite (discard_head _ _ Nd).
      destruct (Hnb i v E1) as (m & Em & Hm & Hx). unfold dgetM. rewrite Em. cbn [bind].
      assert (EA : decode vs (Z.land (Z.land allowed (allowed - 1)) m) = inter (decode vs (Z.land allowed (allowed - 1))) (nbr g v)).
      { rewrite (decode_land vs Nvs _ m). apply inter_nb, Hx. }
      assert (EF : decode vs (Z.land forb m) = inter (decode vs forb) (nbr g v)).
      { rewrite (decode_land vs Nvs _ m). apply inter_nb, Hx. }
      rewrite <- EA, <- EF.
      destruct (below_step used allowed i k (proj1 Hu) HB Hk E6) as (B1 & B2 & B3). rewrite <- E5 in B1, B2.
      pose proof (pow_lt vs i v E1) as Hp.
      assert (EU : decode vs (Z.lor used (2 ^ Z.of_nat i)) = decode vs used ++ [v]) by (apply decode_lor_high; [exact E1|lia]).
      assert (RU : 0 <= Z.lor used (2 ^ Z.of_nat i) < 2 ^ Z.of_nat n) by (apply lor_bound; assumption).
      assert (RA : 0 <= Z.land (Z.land allowed (allowed - 1)) m < 2 ^ Z.of_nat n) by (apply land_bound; exact E4).
      assert (RF : 0 <= Z.land forb m < 2 ^ Z.of_nat n) by (apply land_bound; exact Hf).
      rewrite (IH used (Z.land allowed (allowed - 1)) (Z.lor forb (2 ^ Z.of_nat i))); [|exact Hu|exact E4|apply lor_bound; assumption|exact B1|cbn in HF; lia].
      rewrite (bk_loop_ext first_of fuel (decode vs used) _ (decode vs (Z.lor forb (2 ^ Z.of_nat i))) (v :: decode vs forb)).
      2:{ intros x. rewrite (decode_lor_In vs Nvs), (decode_pow vs i v E1). cbn. tauto. }
      destruct (Z.eqb_spec (Z.land (Z.land allowed (allowed - 1)) m) 0) as [Z1|Z1];
        [destruct (Z.eqb_spec (Z.land forb m) 0) as [Z2|Z2]|]; cbn [andb].
      + rewrite Z1, Z2, !decode_0. rewrite (bits_to_vertices_ok vs); [rewrite EU; reflexivity|exact RU|].
        assert (L : (length (decode vs (Z.lor used (2 ^ Z.of_nat i))) <= n)%nat); [|exact L].
        apply NoDup_incl_length; [apply decode_nodup, Nvs|]. intros x. apply decode_incl.
      + rewrite (IH (Z.lor used (2 ^ Z.of_nat i)) (Z.land (Z.land allowed (allowed - 1)) m) (Z.land forb m));
          [|exact RU|exact RA|exact RF|apply below_land, B2|rewrite EA; pose proof (inter_len (decode vs (Z.land allowed (allowed - 1))) (nbr g v)); cbn in HF; lia].
        cbn [bind]. rewrite EU. destruct (decode vs (Z.land (Z.land allowed (allowed - 1)) m)) as [|a l] eqn:D1; [|reflexivity].
        destruct (decode vs (Z.land forb m)) eqn:D2; [|reflexivity]. apply (decode_nil vs _ RF) in D2. congruence.
      + rewrite (IH (Z.lor used (2 ^ Z.of_nat i)) (Z.land (Z.land allowed (allowed - 1)) m) (Z.land forb m));
          [|exact RU|exact RA|exact RF|apply below_land, B2|rewrite EA; pose proof (inter_len (decode vs (Z.land allowed (allowed - 1))) (nbr g v)); cbn in HF; lia].
        cbn [bind]. rewrite EU. destruct (decode vs (Z.land (Z.land allowed (allowed - 1)) m)) as [|a l] eqn:D1; [|reflexivity].
        apply (decode_nil vs _ RA) in D1. congruence.
  Qed.
End Binary.

Lemma bron_kerbosch_binary_ok g : undirected g -> exists L, bron_kerbosch_binary g = Ret L /\ lists_once (maximal_clique g) L.
Proof.
  intros Hg. unfold bron_kerbosch_binary. set (vs := zsort (dkeys g)).
  assert (P : Permutation vs (dkeys g)) by apply zsort_perm.
  assert (Nvs : NoDup vs) by (apply (Permutation_NoDup (Permutation_sym P)), Hg).
  assert (Hvs : forall v, In v vs <-> vertex g v) by (intros v; split; apply Permutation_in; [exact P|symmetry; exact P]).
  destruct (bit_neighbors_ok g vs Hg Nvs Hvs) as (nb & E & Hnb). rewrite E. cbn [bind].
  assert (HC : closed g [] vs []).
  { split; [split; [constructor|split; [intros u []|intros u v []]]|]. split; [exact Nvs|]. split; [intros v _ []|]. split; [intros v _ []|].
    intros v. rewrite <- Hvs. split; [intros (V & _); left; exact V|]. intros [V|[]]. split; [exact V|]. split; [intros []|intros u []]. }
  assert (HF : forall c, family g [] vs c <-> maximal_clique g c).
  { intros c. split; [intros (M & _); exact M|]. intros M. split; [exact M|]. split; [intros x []|]. intros x Hx. cbn. apply Hvs. destruct M as ((_ & V & _) & _). apply V, Hx. }
  destruct (Z.eqb_spec (2 ^ Z.of_nat (length vs) - 1) 0) as [E0|E0].
  - exists [[]]. split; [reflexivity|]. apply (lo_ext (family g [] vs)); [exact HF|].
    assert (V0 : vs = []).
    { destruct vs as [|v l] eqn:Ev; [reflexivity|]. exfalso. cbn [length] in E0. rewrite Nat2Z.inj_succ, Z.pow_succ_r in E0 by lia.
      pose proof (Z.pow_pos_nonneg 2 (Z.of_nat (length l))). lia. }
    rewrite V0 in *. destruct HC as (HR & _ & _ & _ & HC). apply family_leaf; [exact HR|]. intros v K. apply HC in K as [[]|[]].
  - change (map (fun x => (snd x, fst x)) (bit_map 1 vs)) with (inv_map vs).
    pose proof (Z.pow_pos_nonneg 2 (Z.of_nat (length vs))) as Hp.
    rewrite (bkb_loop_ok g vs Nvs nb Hnb); rewrite ?decode_all; [|lia|lia|lia| |lia].
    + eexists. split; [reflexivity|]. apply (lo_ext (family g [] vs)); [exact HF|]. rewrite !decode_0.
      apply bk_loop_ok; [exact Hg|intros r l Hl; destruct l; [congruence|left; reflexivity]|exact HC|lia|].
      left. intros V0. rewrite V0 in E0. cbn in E0. congruence.
    + intros j Hj. destruct (Z.lt_ge_cases j 0) as [L|L]; [rewrite Z.testbit_neg_r in Hj by exact L; discriminate|]. apply Z.pow_pos_nonneg; lia.
Qed.
