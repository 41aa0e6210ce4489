(** * Hamiltonian paths counted with bit masks *)
From Coq Require Import ZArith List Lia Bool Permutation.
From Verif Require Import Base Py Dict Lists Lists2 Count Graph_Model Graph_Spec Graph_Proofs Graph_Proofs2 Trav_Model Trav_Proofs Cliq_Model Cliq_Spec Cliq_Proofs Mask_Proofs Cliq_Proofs2 Color_Proofs Ham_Model Ham_Spec Ham_Proofs.
Import ListNotations.
Open Scope Z_scope.

Lemma Forall2_fun (R : Z -> Z -> Prop) C vals : NoDup C -> Forall2 R C vals -> exists f, vals = map f C /\ forall u, In u C -> R u (f u).
Proof.
  intros N F. induction F as [|u x C vals H F IH]; [exists (fun _ => 0); split; [reflexivity|intros u []]|].
  inversion_clear N as [|? ? Nu N']. destruct (IH N') as (f & -> & Hf). exists (fun y => if y =? u then x else f y). split.
  - cbn [map]. rewrite Z.eqb_refl. f_equal. apply map_ext_in. intros y Hy. destruct (Z.eqb_spec y u) as [->|_]; [contradiction|reflexivity].
  - intros y [<-|Hy]; [rewrite Z.eqb_refl; exact H|]. destruct (Z.eqb_spec y u) as [->|_]; [contradiction|apply Hf, Hy].
Qed.

Lemma nth_same (l : list Z) i j v : NoDup l -> nth_error l i = Some v -> nth_error l j = Some v -> i = j.
Proof. intros N Ei Ej. apply (proj1 (NoDup_nth_error l) N); [apply nth_error_Some; congruence|congruence]. Qed.

Lemma clear_bit m i : 0 <= i -> Z.testbit m i = true -> m - 2 ^ i = Z.ldiff m (2 ^ i).
Proof.
  intros Hi H. apply Z.sub_nocarry_ldiff. apply Z.bits_inj'. intros j Hj. rewrite Z.ldiff_spec, Z.bits_0.
  destruct (Z.eq_dec i j) as [->|D]; [rewrite H, andb_false_r; reflexivity|]. rewrite Z.pow2_bits_false by lia. reflexivity.
Qed.

Lemma key_split n b c m m' : 0 <= n -> 0 <= b -> 0 <= c -> 0 <= m < 2 ^ n -> 0 <= m' < 2 ^ n -> 2 ^ (n + b) + m = 2 ^ (n + c) + m' -> 2 ^ b = 2 ^ c /\ m = m'.
Proof.
  intros Hn Hb Hc Hm Hm' E. rewrite !Z.pow_add_r in E by lia. assert (P : 0 < 2 ^ n) by (apply Z.pow_pos_nonneg; lia).
  assert (A : forall b m, 0 <= m < 2 ^ n -> (2 ^ n * b + m) / 2 ^ n = b).
  { intros x y Hy. rewrite (Z.mul_comm _ x), Z.div_add_l by lia. rewrite Z.div_small by lia. lia. }
  pose proof (A (2 ^ b) m Hm) as E1. rewrite E, A in E1 by exact Hm'. split; [congruence|]. rewrite E1 in E. lia.
Qed.

Section Bits.
  Context (g : graph) (vs : list Z) (nb : list (Z * Z)) (con : bool).
  Hypothesis Hg : undirected g.
  Hypothesis Nvs : NoDup vs.
  Hypothesis Hnb : nb_ok g vs nb.
  Let n := Z.of_nat (length vs).

  Lemma decode_clear m i v x : nth_error vs i = Some v -> Z.testbit m (Z.of_nat i) = true ->
    (In x (decode vs (m - 2 ^ Z.of_nat i)) <-> In x (decode vs m) /\ x <> v).
  Proof using Nvs.
    intros E B. rewrite clear_bit by (lia || exact B). rewrite !(decode_In vs Nvs). split.
    - intros (j & Ej & Bj). rewrite Z.ldiff_spec in Bj. apply andb_true_iff in Bj as (B1 & B2). apply negb_true_iff in B2. split; [exists j; split; assumption|].
      intros ->. assert (j = i) by (apply (nth_same vs j i v Nvs); assumption). subst j. rewrite Z.pow2_bits_true in B2 by lia. discriminate.
    - intros ((j & Ej & Bj) & D). exists j. split; [exact Ej|]. rewrite Z.ldiff_spec, Bj. rewrite Z.pow2_bits_false; [reflexivity|]. intros H. apply Nat2Z.inj in H. subst j. congruence.
  Qed.

  Lemma decode_clear_perm m i v : nth_error vs i = Some v -> Z.testbit m (Z.of_nat i) = true ->
    Permutation (decode vs (m - 2 ^ Z.of_nat i)) (discard (decode vs m) v).
  Proof using Nvs.
    intros E B. apply NoDup_same_perm; [apply decode_nodup, Nvs|apply discard_nodup, decode_nodup, Nvs|]. intros x. rewrite discard_In. apply decode_clear; assumption.
  Qed.

  Lemma clear_range m i : 0 <= i -> 0 <= m < 2 ^ n -> Z.testbit m i = true -> 0 <= m - 2 ^ i < 2 ^ n.
  Proof using.
    intros Hi Hm B. pose proof (Z.pow_pos_nonneg 2 i ltac:(lia) Hi). split; [|lia]. rewrite (clear_bit m i Hi B). apply Z.ldiff_nonneg. left. lia.
  Qed.

  (** The position of a vertex whose bit is set. *)
  Lemma bit_set m i v : nth_error vs i = Some v -> In v (decode vs m) -> Z.testbit m (Z.of_nat i) = true.
  Proof using Nvs.
    intros E H. apply (decode_In vs Nvs) in H as (j & Ej & Bj). assert (j = i) by (apply (nth_same vs j i v Nvs); assumption). subst j. exact Bj.
  Qed.

  (** ** The traversal *)
  Lemma bcon_loop_ok rem : 0 <= rem < 2 ^ n -> forall s fuel stack visited, 0 <= stack < 2 ^ n -> 0 <= visited < 2 ^ n ->
    In s (decode vs stack) \/ In s (decode vs visited) ->
    (forall x, In x (decode vs stack) -> ~ In x (decode vs visited)) ->
    (forall x, In x (decode vs stack) \/ In x (decode vs visited) -> reach_in g (decode vs rem) s x) ->
    (forall u v, In u (decode vs visited) -> edge g u v -> In v (decode vs rem) -> In v (decode vs visited) \/ In v (decode vs stack)) ->
    (length (decode vs rem) - length (decode vs visited) <= fuel)%nat ->
    exists vis, bcon_loop nb rem fuel stack visited = Ret vis /\ 0 <= vis < 2 ^ n /\ forall x, In x (decode vs vis) <-> reach_in g (decode vs rem) s x.
  Proof using Hg Nvs Hnb.
    intros Hrem s. induction fuel as [|fuel IH]; intros stack visited Hs Hv S0 Dis R C L; cbn [bcon_loop]; destruct (Z.eqb_spec stack 0) as [E0|Ne].
    1,3: exists visited; split; [reflexivity|]; split; [exact Hv|]; subst stack; rewrite decode_0 in *; intros x; split; [intros H; apply R; right; exact H|];
      induction 1 as [H|v w H IHr E Hw]; [destruct S0 as [[]|S0]; exact S0|destruct (C v w IHr E Hw) as [H'|[]]; exact H'].
    - exfalso. destruct (least_bit vs stack) as (i & v & E1 & _ & E3 & _); [fold n; lia|].
      assert (Iv : In v (decode vs stack)) by (rewrite E3; left; reflexivity).
      assert (LL : (length (v :: decode vs visited) <= length (decode vs rem))%nat).
      { apply NoDup_incl_length; [constructor; [apply Dis, Iv|apply decode_nodup, Nvs]|]. intros x [<-|Hx]; [pose proof (R v (or_introl Iv)) as Q|pose proof (R x (or_intror Hx)) as Q]; destruct Q; assumption. }
      cbn [length] in LL. lia.
    - destruct (least_bit vs stack) as (i & v & E1 & E2 & E3 & E4 & E5 & _); [fold n; lia|]. rewrite E2. cbv zeta.
      assert (Iv : In v (decode vs stack)) by (rewrite E3; left; reflexivity).
      destruct (Hnb i v E1) as (m & Em & Rm & Hm). unfold dgetM. rewrite Em. cbn [bind].
      set (visited' := Z.lor visited (2 ^ Z.of_nat i)). set (new := Z.land (Z.land m rem) (Z.lnot visited')).
      assert (Bi := bit_set stack i v E1 Iv).
      assert (Hv' : 0 <= visited' < 2 ^ n) by (apply lor_bound; [exact Hv|exact (pow_lt vs i v E1)]).
      assert (Dv' : forall x, In x (decode vs visited') <-> In x (decode vs visited) \/ x = v).
      { intros x. unfold visited'. rewrite (decode_lor_In vs Nvs), (decode_pow vs i v E1). cbn [In]. intuition congruence. }
      assert (Hnew : 0 <= new < 2 ^ n) by (apply land_bound, land_bound; exact Rm).
      assert (Dn : forall x, In x (decode vs new) <-> edge g v x /\ In x (decode vs rem) /\ ~ In x (decode vs visited')).
      { intros x. unfold new. rewrite (decode_land vs Nvs), inter_In, (decode_land vs Nvs), inter_In, Hm, (nbr_In g). split.
        - intros ((A & B) & D). split; [exact A|split; [exact B|]]. intros H. rewrite (decode_In vs Nvs) in D, H. destruct D as (j & Ej & Bj), H as (j' & Ej' & Bj').
          assert (j' = j) by (apply (nth_same vs j' j x Nvs); assumption). subst j'. rewrite Z.lnot_spec, Bj' in Bj by lia. discriminate.
        - intros (A & B & D). split; [split; assumption|]. pose proof B as B'. rewrite (decode_In vs Nvs) in B |- *. destruct B as (j & Ej & Bj). exists j. split; [exact Ej|]. rewrite Z.lnot_spec by lia.
          destruct (Z.testbit visited' (Z.of_nat j)) eqn:T; [|reflexivity]. exfalso. apply D, (decode_In vs Nvs). exists j. split; assumption. }
      assert (Rv : reach_in g (decode vs rem) s v) by (apply R; left; exact Iv).
      assert (Ds : forall x, In x (decode vs (stack - 2 ^ Z.of_nat i)) <-> In x (decode vs stack) /\ x <> v) by (intros x; apply decode_clear; assumption).
      assert (Ds' : forall x, In x (decode vs (Z.lor (stack - 2 ^ Z.of_nat i) new)) <-> (In x (decode vs stack) /\ x <> v) \/ (edge g v x /\ In x (decode vs rem) /\ ~ In x (decode vs visited'))).
      { intros x. rewrite (decode_lor_In vs Nvs), Ds, Dn. reflexivity. }
      apply IH.
      + apply lor_bound; [|exact Hnew]. rewrite <- E5. fold n in E4. exact E4.
      + exact Hv'.
      + rewrite Dv'. rewrite Ds'. destruct (Z.eq_dec s v) as [->|D]; [auto|]. destruct S0; auto.
      + intros x Hx. apply Ds' in Hx as [(H1 & H2)|(_ & _ & H)]; [|exact H]. rewrite Dv'. intros [H|H]; [apply (Dis x H1 H)|contradiction].
      + intros x. rewrite Ds', Dv'. intros [[H|H]|[H | ->]]; [apply R; tauto| |apply R; tauto|exact Rv]. apply (reach_step g _ s v x Rv); tauto.
      + intros x y Hx Ex Hy. destruct (in_dec Z.eq_dec y (decode vs visited')) as [Iy|Iy]; [left; exact Iy|right]. apply Ds'. apply Dv' in Hx as [Hx | ->]; [|right; tauto].
        left. rewrite Dv' in Iy. destruct (C x y Hx Ex Hy); [tauto|]. split; [assumption|]. intros ->. tauto.
      + assert (LL : (length (decode vs visited) < length (decode vs visited'))%nat).
        { assert (X : (length (v :: decode vs visited) <= length (decode vs visited'))%nat); [|cbn [length] in X; lia].
          apply NoDup_incl_length; [constructor; [apply Dis, Iv|apply decode_nodup, Nvs]|]. intros x [<-|Hx]; apply Dv'; auto. }
        lia.
  Qed.

  Lemma bconnected_ok rem : 0 < rem < 2 ^ n ->
    exists b, (do visited <- bcon_loop nb rem (length vs) (Z.land rem (- rem)) 0; Ret (visited =? rem)) = Ret b /\ (b = true <-> connected_in g (decode vs rem)).
  Proof using Hg Nvs Hnb.
    intros Hr. destruct (least_bit vs rem) as (i & s & E1 & E2 & E3 & _); [fold n; lia|]. rewrite E2.
    assert (Hs : In s (decode vs rem)) by (rewrite E3; left; reflexivity).
    destruct (bcon_loop_ok rem ltac:(lia) s (length vs) (2 ^ Z.of_nat i) 0) as (vis & E & Rv & Hv).
    - exact (pow_lt vs i s E1).
    - fold n. lia.
    - left. rewrite (decode_pow vs i s E1). left. reflexivity.
    - intros x _. rewrite decode_0. intros [].
    - intros x. rewrite (decode_pow vs i s E1), decode_0. intros [[<-|[]]|[]]. apply reach_here, Hs.
    - intros u v. rewrite decode_0. intros [].
    - rewrite decode_0. cbn [length]. assert (length (decode vs rem) <= length vs)%nat; [|lia]. apply NoDup_incl_length; [apply decode_nodup, Nvs|intros x; apply decode_incl].
    - rewrite E. cbn [bind]. eexists. split; [reflexivity|]. rewrite Z.eqb_eq. split.
      + intros -> u v Hu Hv'. apply (reach_trans' g _ u s v); [apply reach_sym'; [exact Hg|apply Hv, Hu|exact Hs]|apply Hv, Hv'].
      + intros H. assert (Set_eq : forall x, In x (decode vs vis) <-> In x (decode vs rem)).
        { intros x. rewrite Hv. split; [destruct 1; assumption|intros Hx; apply H; assumption]. }
        apply Z.bits_inj'. intros j Hj. destruct (Z.lt_ge_cases j n) as [Lj|Lj].
        * destruct (nth_error vs (Z.to_nat j)) as [x|] eqn:Ex; [|exfalso; apply nth_error_None in Ex; unfold n in Lj; lia].
          replace j with (Z.of_nat (Z.to_nat j)) by lia. destruct (Z.testbit rem (Z.of_nat (Z.to_nat j))) eqn:T.
          -- apply (bit_set vis _ x Ex), Set_eq, (decode_In vs Nvs). eexists. split; [exact Ex|exact T].
          -- destruct (Z.testbit vis (Z.of_nat (Z.to_nat j))) eqn:T'; [|reflexivity]. rewrite <- T. symmetry. apply (bit_set rem _ x Ex), Set_eq, (decode_In vs Nvs). eexists. split; [exact Ex|exact T'].
        * assert (B : forall m, 0 <= m < 2 ^ n -> Z.testbit m j = false).
          { intros m Hm. destruct (Z.eq_dec m 0) as [->|Nm]; [apply Z.bits_0|]. apply Z.bits_above_log2; [lia|]. assert (Z.log2 m < n) by (apply Z.log2_lt_pow2; lia). lia. }
          rewrite (B vis) by exact Rv. rewrite (B rem) by lia. reflexivity.
  Qed.

  (** ** The counts *)
  Definition cache_ok (cache : list (Z * Z)) : Prop :=
    forall b x, dget cache b = Some x -> exists i u m, nth_error vs i = Some u /\ 0 <= m < 2 ^ n /\ b = 2 ^ (n + Z.of_nat i) + m /\ number_of (ext g u (decode vs m)) x.

  Lemma cand_loop_ok rem rec : 0 <= rem < 2 ^ n ->
    (forall i u cache, nth_error vs i = Some u -> In u (decode vs rem) -> cache_ok cache ->
       exists x cache', rec (2 ^ (n + Z.of_nat i) + (rem - 2 ^ Z.of_nat i)) cache = Ret (x, cache') /\ cache_ok cache' /\ number_of (ext g u (discard (decode vs rem) u)) x) ->
    forall k c total cache, 0 <= c < 2 ^ n -> (length (decode vs c) <= k)%nat -> (forall x, In x (decode vs c) -> In x (decode vs rem)) -> cache_ok cache ->
    exists vals cache', cand_loop n rem rec k c total cache = Ret (total + zsum vals, cache') /\ cache_ok cache' /\
      Forall2 (fun u x => number_of (ext g u (discard (decode vs rem) u)) x) (decode vs c) vals.
  Proof using Hg Nvs Hnb.
    intros Hrem Hrec. induction k as [|k IH]; intros c total cache Hc L Sub Hcache; cbn [cand_loop]; destruct (Z.eqb_spec c 0) as [->|Ne].
    1,3: exists [], cache; rewrite decode_0; cbn [zsum fold_right]; rewrite Z.add_0_r; split; [reflexivity|]; split; [exact Hcache|constructor].
    - exfalso. apply Ne, (decode_nil vs c Hc). destruct (decode vs c); [reflexivity|cbn in L; lia].
    - destruct (least_bit vs c) as (i & u & E1 & E2 & E3 & E4 & E5 & _); [fold n; lia|]. rewrite E2. cbv zeta.
      rewrite Z.shiftl_mul_pow2 by (unfold n; lia). rewrite <- Z.pow_add_r by (unfold n; lia). rewrite (Z.add_comm (Z.of_nat i) n).
      assert (Iu : In u (decode vs rem)) by (apply Sub; rewrite E3; left; reflexivity).
      destruct (Hrec i u cache E1 Iu Hcache) as (x & cache1 & E & H1 & Hx). rewrite E. cbn [bind].
      destruct (IH (c - 2 ^ Z.of_nat i) (total + x) cache1) as (vals & cache2 & E' & H2 & F).
      + rewrite <- E5. exact E4.
      + rewrite <- E5. rewrite E3 in L. cbn [length] in L. lia.
      + intros y Hy. apply Sub. rewrite E3, E5. right. exact Hy.
      + exact H1.
      + exists (x :: vals), cache2. rewrite E'. cbn [zsum fold_right]. split; [f_equal; f_equal; unfold zsum; lia|]. split; [exact H2|]. rewrite E3, E5. constructor; assumption.
  Qed.

  Lemma bextend_ok : forall fuel i u m cache, nth_error vs i = Some u -> 0 <= m < 2 ^ n -> (length (decode vs m) < fuel)%nat -> cache_ok cache ->
    exists x cache', bextend nb con (length vs) fuel (2 ^ (n + Z.of_nat i) + m) cache = Ret (x, cache') /\ cache_ok cache' /\ number_of (ext g u (decode vs m)) x.
  Proof using Hg Nvs Hnb.
    induction fuel as [|fuel IH]; intros i u m cache Ei Hm L Hcache; [lia|]. cbn [bextend]. fold n.
    assert (Hn : 0 <= n) by (unfold n; lia). assert (P2 : 0 < 2 ^ n) by (apply Z.pow_pos_nonneg; lia).
    destruct (dget cache (2 ^ (n + Z.of_nat i) + m)) as [x|] eqn:Ec.
    { exists x, cache. split; [reflexivity|]. split; [exact Hcache|]. destruct (Hcache _ _ Ec) as (i' & u' & m' & Ei' & Hm' & E & Hx).
      apply key_split in E as (E1 & E2); try lia. apply Z.pow_inj_r in E1; [|lia|lia|lia]. apply Nat2Z.inj in E1. subst i' m'. replace u with u' by congruence. exact Hx. }
    assert (Emod : (2 ^ (n + Z.of_nat i) + m) mod 2 ^ n = m).
    { rewrite Z.pow_add_r, Z.mul_comm, Z.add_comm, Z.mod_add by lia. apply Z.mod_small. exact Hm. }
    assert (Eshift : Z.shiftr (2 ^ (n + Z.of_nat i) + m) n = 2 ^ Z.of_nat i).
    { rewrite Z.shiftr_div_pow2 by lia. rewrite Z.pow_add_r, Z.mul_comm, Z.div_add_l by lia. rewrite Z.div_small by lia. lia. }
    cbv zeta. rewrite Emod, Eshift. destruct (Z.eqb_spec m 0) as [->|Nm].
    { exists 1, cache. split; [reflexivity|]. split; [exact Hcache|]. rewrite decode_0. apply (number_of_one _ []). intros p.
      split; [intros (P & _); apply Permutation_sym, Permutation_nil in P; exact P|intros ->; split; [constructor|apply successive_one]]. }
    assert (Conn : exists b, (if con then do visited <- bcon_loop nb m (length vs) (Z.land m (- m)) 0; Ret (visited =? m) else Ret true) = Ret b /\ (b = false -> ~ connected_in g (decode vs m))).
    { destruct con; [|exists true; split; [reflexivity|discriminate]]. destruct (bconnected_ok m) as (b & E & H); [lia|]. exists b. split; [exact E|]. intros -> H'. apply H in H'. discriminate. }
    destruct Conn as (b & Eb & Hb). rewrite Eb. cbn [bind]. destruct b.
    2:{ exists 0, cache. split; [reflexivity|]. split; [exact Hcache|]. apply number_of_none. intros p H. apply (Hb eq_refl), (ext_connected g Hg u _ p H). }
    destruct (Hnb i u Ei) as (nl & En & Rn & Hn'). unfold dgetM at 1. rewrite En. cbn [bind].
    assert (Dl : forall x, In x (decode vs (Z.land m nl)) <-> edge g u x /\ In x (decode vs m)).
    { intros x. rewrite (decode_land vs Nvs), inter_In, Hn', (nbr_In g). tauto. }
    destruct (cand_loop_ok m (bextend nb con (length vs) fuel) Hm) with (k := length vs) (c := Z.land m nl) (total := 0) (cache := cache) as (vals & cache' & E & H & F).
    - intros j w cache1 Ej Iw H1. assert (Bj := bit_set m j w Ej Iw).
      destruct (IH j w (m - 2 ^ Z.of_nat j) cache1 Ej) as (x & c2 & E & H2 & Hx).
      + apply clear_range; [lia|exact Hm|exact Bj].
      + rewrite (Permutation_length (decode_clear_perm m j w Ej Bj)). pose proof (discard_length (decode vs m) w (decode_nodup vs Nvs m) Iw). lia.
      + exact H1.
      + exists x, c2. split; [exact E|]. split; [exact H2|]. eapply number_of_ext; [|exact Hx]. intros p. apply ext_perm, decode_clear_perm; assumption.
    - apply land_bound, Hm.
    - apply NoDup_incl_length; [apply decode_nodup, Nvs|intros x; apply decode_incl].
    - intros x Hx. apply Dl in Hx. apply Hx.
    - exact Hcache.
    - rewrite E. cbn [bind]. rewrite Z.add_0_l.
      assert (Ek : Z.shiftl (2 ^ Z.of_nat i) n + m = 2 ^ (n + Z.of_nat i) + m) by (rewrite Z.shiftl_mul_pow2, <- Z.pow_add_r by lia; f_equal; f_equal; lia).
      rewrite Ek. assert (Hx : number_of (ext g u (decode vs m)) (zsum vals)).
      { destruct (Forall2_fun _ _ _ (decode_nodup vs Nvs (Z.land m nl)) F) as (f & -> & Hf).
        apply ext_sum; [apply decode_nodup, Nvs| |apply decode_nodup, Nvs|exact Dl|exact Hf]. intros Em. apply Nm, (decode_nil vs m Hm Em). }
      unfold dgetM. rewrite dget_dset, Z.eqb_refl. cbn [bind]. exists (zsum vals). eexists. split; [reflexivity|]. split; [|exact Hx].
      intros b x. rewrite dget_dset. destruct (Z.eqb_spec (2 ^ (n + Z.of_nat i) + m) b) as [<-|D]; [|apply H].
      intros [= <-]. exists i, u, m. split; [exact Ei|]. split; [exact Hm|]. split; [reflexivity|exact Hx].
  Qed.
End Bits.

Lemma zsum_perm l l' : Permutation l l' -> zsum l = zsum l'.
Proof. unfold zsum. induction 1; cbn [fold_right]; lia. Qed.

Lemma ham_bits_ok g con vs : undirected g -> g <> [] -> Permutation vs (map fst g) ->
  exists v, ham_bits g con vs = Ret v /\ number_of (hamiltonian_path g) v.
Proof.
  intros Hg Ne P. assert (Nvs : NoDup vs) by (apply (Permutation_NoDup (Permutation_sym P)), Hg).
  assert (Hvs : forall x, In x vs <-> vertex g x) by (intros x; split; apply Permutation_in; [|symmetry]; exact P).
  unfold ham_bits. destruct (bit_neighbors_ok g vs Hg Nvs Hvs) as (nb & E & Hnb). rewrite E. cbn [bind]. set (n := Z.of_nat (length vs)).
  set (F := fun (st : Z * list (Z * Z)) => let '(count, cache) := st in fun (i : Z) =>
      do '(x, cache) <- bextend nb con (length vs) (length vs) (2 ^ (n + i) + (2 ^ n - 1 - 2 ^ i)) cache; Ret (count + x, cache)).
  destruct (foldM_inv F (fun pre st => cache_ok g vs (snd st) /\ exists vals, fst st = zsum vals /\
     Forall2 (fun i x => exists u, nth_error vs (Z.to_nat i) = Some u /\ number_of (ext g u (discard (map fst g) u)) x) pre vals) (zrange 0 n) (0, [])) as ([total cache] & Ef & _ & vals & Ev & Fv).
  - split; [intros b x; discriminate|]. exists []. split; [reflexivity|constructor].
  - intros pre i post [total cache] Es (Hc & vals & Et & Fv). cbn [fst snd] in *. unfold F.
    assert (Hi : 0 <= i < n) by (apply zrange_In; rewrite Es; apply in_or_app; right; left; reflexivity).
    destruct (nth_error vs (Z.to_nat i)) as [u|] eqn:Eu; [|exfalso; apply nth_error_None in Eu; unfold n in Hi; lia].
    assert (P2 : 0 < 2 ^ n) by (apply Z.pow_pos_nonneg; lia).
    assert (Rall : 0 <= 2 ^ n - 1 < 2 ^ n) by lia.
    assert (Dall : decode vs (2 ^ n - 1) = vs) by apply decode_all.
    assert (Iu : In u vs) by (apply nth_error_In in Eu; exact Eu).
    assert (Bi : Z.testbit (2 ^ n - 1) (Z.of_nat (Z.to_nat i)) = true) by (apply (bit_set vs Nvs _ _ u Eu); rewrite Dall; exact Iu).
    assert (Pm := decode_clear_perm vs Nvs (2 ^ n - 1) (Z.to_nat i) u Eu Bi). rewrite Dall in Pm.
    assert (Pm' : Permutation (discard vs u) (discard (map fst g) u)).
    { apply NoDup_same_perm; [apply discard_nodup, Nvs|apply discard_nodup, Hg|]. intros x. rewrite !discard_In. rewrite Hvs. reflexivity. }
    destruct (bextend_ok g vs nb con Hg Nvs Hnb (length vs) (Z.to_nat i) u (2 ^ n - 1 - 2 ^ i) cache Eu) as (x & cache' & Ex & Hc' & Hx).
    + replace i with (Z.of_nat (Z.to_nat i)) by lia. apply clear_range; [lia|exact Rall|exact Bi].
    + replace i with (Z.of_nat (Z.to_nat i)) at 1 by lia. rewrite (Permutation_length Pm). apply discard_length; assumption.
    + exact Hc.
    + fold n in Ex. rewrite Z2Nat.id in Ex by lia. rewrite Ex. cbn [bind]. eexists. split; [reflexivity|]. split; [exact Hc'|]. exists (vals ++ [x]). cbn [fst]. split.
      * rewrite Et. unfold zsum. rewrite fold_right_app. cbn [fold_right]. clear. rewrite Z.add_0_r. induction vals as [|y vals IH]; cbn [fold_right]; lia.
      * apply Forall2_app; [exact Fv|]. constructor; [|constructor]. exists u. split; [exact Eu|]. eapply number_of_ext; [|exact Hx]. intros p. apply ext_perm.
        rewrite <- Pm'. replace i with (Z.of_nat (Z.to_nat i)) at 1 by lia. exact Pm.
  - exists total. rewrite Ef. cbn [bind]. split; [reflexivity|]. cbn [fst] in Ev. rewrite Ev.
    assert (G : Forall2 (fun u x => number_of (ext g u (discard (map fst g) u)) x) vs vals).
    { clear -Fv. unfold n in Fv. clear n. assert (K : forall k pre l vals, vs = pre ++ l -> k = Z.of_nat (length pre) ->
        Forall2 (fun i x => exists u, nth_error vs (Z.to_nat i) = Some u /\ number_of (ext g u (discard (map fst g) u)) x) (zrange k (Z.of_nat (length vs))) vals ->
        Forall2 (fun u x => number_of (ext g u (discard (map fst g) u)) x) l vals).
      { intros k pre l. revert k pre. induction l as [|v l IH]; intros k pre vals' E Ek FF.
        - rewrite zrange_nil in FF; [inversion FF; constructor|]. rewrite E, app_length. cbn [length]. lia.
        - rewrite zrange_cons in FF by (rewrite E, app_length; cbn [length]; lia). inversion_clear FF as [|? x ? vals'' (u & Eu & Hx) FF']. rewrite Ek in *. constructor.
          + rewrite E, nth_error_app2 in Eu by lia. replace (Z.to_nat (Z.of_nat (length pre)) - length pre)%nat with O in Eu by lia. cbn in Eu. injection Eu as ->. exact Hx.
          + apply (IH (Z.of_nat (length pre) + 1) (pre ++ [v])); [rewrite E, <- app_assoc; reflexivity|rewrite app_length; cbn [length]; lia|exact FF']. }
      apply (K 0 [] vs vals eq_refl eq_refl Fv). }
    destruct (Forall2_fun _ _ _ Nvs G) as (f & -> & Hf). apply ham_sum; [apply Hg|exact Ne|exact P|exact Hf].
Qed.
