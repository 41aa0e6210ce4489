(** * Maximum cliques with bit masks *)
From Coq Require Import ZArith List Lia Bool Permutation.
From Verif Require Import Base Py Dict Lists Lists2 Graph_Model Graph_Spec Graph_Proofs Trav_Model Trav_Proofs Cliq_Model Cliq_Spec Cliq_Proofs Mask_Proofs Cliq_Proofs2 Color_Model MaxCliq_Model MaxCliq_Proofs.
Import ListNotations.
Open Scope Z_scope.

Lemma popcount_step m : 0 <= m -> popcount m = (if Z.odd m then 1 else 0) + popcount (Z.div2 m).
Proof. intros H. destruct m as [|p|p]; [reflexivity| |lia]. destruct p; cbn [popcount ones Z.odd Z.div2 Pos.div2]; reflexivity. Qed.

Lemma popcount_decode vs : forall m, 0 <= m < 2 ^ Z.of_nat (length vs) -> popcount m = Z.of_nat (length (decode vs m)).
Proof.
  induction vs as [|v vs IH]; intros m Hm.
  - cbn [length] in Hm. change (2 ^ Z.of_nat 0) with 1 in Hm. replace m with 0 by lia. reflexivity.
  - cbn [length] in Hm. rewrite Nat2Z.inj_succ, Z.pow_succ_r in Hm by lia. rewrite popcount_step by lia. cbn [decode].
    rewrite (IH (Z.div2 m)); [destruct (Z.odd m); cbn [length]; lia|]. pose proof (Z.div2_odd m). destruct (Z.odd m); cbn [Z.b2z] in *; lia.
Qed.

Lemma pick_bits_decode vs : forall i bits, 0 <= i -> pick_bits vs i bits = decode vs (Z.shiftr bits i).
Proof.
  induction vs as [|v vs IH]; intros i bits Hi; [reflexivity|]. cbn [pick_bits decode]. rewrite (IH (i + 1) bits) by lia.
  rewrite Z.div2_spec, Z.shiftr_shiftr by lia. replace (Z.odd (Z.shiftr bits i)) with (Z.testbit bits i) by (rewrite <- Z.bit0_odd, Z.shiftr_spec by lia; f_equal; lia).
  rewrite Z.shiftl_mul_pow2, Z.mul_1_l by lia.
  assert (E : Z.land bits (2 ^ i) = if Z.testbit bits i then 2 ^ i else 0).
  { apply Z.bits_inj'. intros j Hj. rewrite Z.land_spec, Z.pow2_bits_eqb by lia. destruct (Z.eqb_spec i j) as [->|N].
    - destruct (Z.testbit bits j); cbn [andb]; [rewrite Z.pow2_bits_true by lia; reflexivity|rewrite Z.bits_0; reflexivity].
    - rewrite andb_false_r. destruct (Z.testbit bits i); [rewrite Z.pow2_bits_false by lia; reflexivity|rewrite Z.bits_0; reflexivity]. }
  rewrite E. pose proof (Z.pow_pos_nonneg 2 i). destruct (Z.testbit bits i); [destruct (Z.eqb_spec (2 ^ i) 0); [lia|reflexivity]|reflexivity].
Qed.

Lemma suffix_mask vs : forall i, (i <= length vs)%nat -> decode vs ((2 ^ (Z.of_nat (length vs) - Z.of_nat i) - 1) * 2 ^ Z.of_nat i) = skipn i vs.
Proof.
  induction vs as [|v vs IH]; intros i Hi; [destruct i; [reflexivity|cbn in Hi; lia]|]. destruct i as [|i].
  - change (2 ^ Z.of_nat 0) with 1. rewrite Z.mul_1_r, Z.sub_0_r. apply decode_all.
  - cbn [skipn length] in *. rewrite <- (IH i) by lia. rewrite !Nat2Z.inj_succ, Z.pow_succ_r by lia.
    replace (Z.succ (Z.of_nat (length vs)) - Z.succ (Z.of_nat i)) with (Z.of_nat (length vs) - Z.of_nat i) by lia.
    set (x := (2 ^ (Z.of_nat (length vs) - Z.of_nat i) - 1)). replace (x * (2 * 2 ^ Z.of_nat i)) with (2 * (x * 2 ^ Z.of_nat i)) by ring.
    cbn [decode]. rewrite odd_2k, div2_even. reflexivity.
Qed.

Lemma shift_mask n i : 0 <= i <= n -> Z.shiftl (Z.shiftr (2 ^ n - 1) i) i = (2 ^ (n - i) - 1) * 2 ^ i.
Proof.
  intros H. rewrite Z.shiftl_mul_pow2, Z.shiftr_div_pow2 by lia. f_equal.
  replace (2 ^ n) with (2 ^ (n - i) * 2 ^ i) by (rewrite <- Z.pow_add_r by lia; f_equal; lia).
  pose proof (Z.pow_pos_nonneg 2 i). pose proof (Z.pow_pos_nonneg 2 (n - i)). symmetry. apply (Z.div_unique _ _ _ (2 ^ i - 1)); [lia|ring].
Qed.

Lemma skipn_nth {A} (l : list A) : forall i x, nth_error l i = Some x -> skipn i l = x :: skipn (S i) l.
Proof. induction l as [|y l IH]; intros [|i] x H; cbn in *; try discriminate; [congruence|]. apply IH, H. Qed.

Section Binary.
  Context (g : graph) (vs : list Z).
  Hypothesis Hg : undirected g.
  Hypothesis Nvs : NoDup vs.
  Notation n := (length vs).
  Context (nb : list (Z * Z)).
  Hypothesis Hnb : nb_ok g vs nb.

  Definition lim_rel (dB d : option (list (Z * Z))) : Prop :=
    match dB, d with
    | None, None => True
    | Some dB, Some d => forall i v, nth_error vs i = Some v -> dget dB (2 ^ Z.of_nat i) = dget d v
    | _, _ => False
    end.

  Definition bloop (largest : option (list (Z * Z))) (stop : bool) (rec : Z -> Z -> Z -> Z * Z * bool -> outcome (Z * Z * bool)) (used size : Z) :
      nat -> Z -> Z * Z * bool -> outcome (Z * Z * bool) :=
    fix loop (k : nat) (candidates : Z) (st : Z * Z * bool) : outcome (Z * Z * bool) :=
       match k with
       | O => Diverge
       | S k' =>
           if candidates =? 0 then Ret st
           else if size + popcount candidates <=? best_size st then Ret st
           else
             let u := Z.land candidates (- candidates) in
             if lim_cut largest u size (best_size st) then Ret st
             else
               let candidates := Z.land candidates (candidates - 1) in
               do nu <- dgetM nb u;
               do st <- rec (Z.lor used u) (Z.land candidates nu) (size + 1) st;
               if stop && was_found st then Ret st else loop k' candidates st
       end.

  Lemma bsearch_S largest stop f used c size st : bsearch nb largest stop n (S f) used c size st =
    if c =? 0 then Ret (if best_size st <? size then (size, used, true) else st)
    else bloop largest stop (bsearch nb largest stop n f) used size (S n) c st.
  Proof. reflexivity. Qed.

  (** The two states agree. *)
  Definition agree (r : outcome (Z * Z * bool)) (st : mstate) : Prop :=
    exists m mask fd, r = Ret (m, mask, fd) /\ 0 <= mask < 2 ^ Z.of_nat n /\ st = (m, decode vs mask, fd).

  Lemma mloop_skip wt largest stop rec size used x rest c st : ~ In x c ->
    mloop g wt largest stop rec size used (x :: rest) c st = mloop g wt largest stop rec size used rest c st.
  Proof using.
    intros H. cbn [mloop]. destruct c as [|y c'] eqn:Ec; [destruct rest; reflexivity|]. rewrite <- Ec in *.
    destruct (size + fold_right (fun v t => wt v + t) 0 c <=? best_size st) eqn:E.
    - destruct rest as [|z rest]; [reflexivity|]. cbn [mloop]. rewrite Ec at 1. rewrite E. reflexivity.
    - apply mem_false in H. rewrite H. reflexivity.
  Qed.
  Lemma mloop_skips wt largest stop rec size used c st : forall d j, (j + d <= n)%nat ->
    (forall i x, (j <= i < j + d)%nat -> nth_error vs i = Some x -> ~ In x c) ->
    mloop g wt largest stop rec size used (skipn j vs) c st = mloop g wt largest stop rec size used (skipn (j + d) vs) c st.
  Proof using.
    induction d as [|d IH]; intros j Hj H; [rewrite Nat.add_0_r; reflexivity|].
    destruct (nth_error vs j) as [x|] eqn:E; [|apply nth_error_None in E; lia].
    rewrite (skipn_nth vs j x E), mloop_skip by (apply (H j x); [lia|exact E]). rewrite (IH (S j)); [f_equal; f_equal; lia|lia|].
    intros i y Hi. apply H. lia.
  Qed.

  Lemma lim_cut_eq dB d i v size m : lim_rel dB d -> nth_error vs i = Some v -> lim_cut dB (2 ^ Z.of_nat i) size m = lim_cut d v size m.
  Proof using. intros H E. destruct dB, d; cbn in H |- *; try contradiction; [|reflexivity]. rewrite (H i v E). reflexivity. Qed.

  Section Rec.
    Context (dB d : option (list (Z * Z))) (stop : bool).
    Hypothesis HD : lim_rel dB d.

    Lemma bloop_ok f size used :
      (forall used c size m mask fd, 0 <= used < 2 ^ Z.of_nat n -> 0 <= c < 2 ^ Z.of_nat n -> 0 <= mask < 2 ^ Z.of_nat n -> below used c -> (length (decode vs c) < f)%nat ->
         agree (bsearch nb dB stop n f used c size (m, mask, fd)) (msearch g one d stop vs f (decode vs c) size (decode vs used) (m, decode vs mask, fd))) ->
      0 <= used < 2 ^ Z.of_nat n ->
      forall k j c m mask fd, 0 <= c < 2 ^ Z.of_nat n -> 0 <= mask < 2 ^ Z.of_nat n -> below used c -> (length (decode vs c) <= f)%nat ->
      (forall b, Z.testbit c b = true -> Z.of_nat j <= b) -> (length (decode vs c) < k)%nat ->
      agree (bloop dB stop (bsearch nb dB stop n f) used size k c (m, mask, fd))
        (mloop g one d stop (msearch g one d stop vs f) size (decode vs used) (skipn j vs) (decode vs c) (m, decode vs mask, fd)).
    Proof.
      intros Hrec Hu. induction k as [|k IH]; intros j c m mask fd Hc Hm HB HF Hj HK; [lia|]. cbn [bloop].
      destruct (Z.eqb_spec c 0) as [->|Nc].
      { rewrite decode_0. exists m, mask, fd. split; [reflexivity|]. split; [exact Hm|]. destruct (skipn j vs); reflexivity. }
      destruct (least_bit vs c) as (i & v & E1 & E2 & E3 & E4 & E5 & q & Hq & E6); [lia|].
      assert (Hji : (j <= i)%nat) by (pose proof (Hj _ (least_is_set c i q Hq E6)); lia).
      pose proof (idx_lt vs i v E1) as Hi.
      rewrite (mloop_skips one d stop _ size _ _ _ (i - j) j); [|lia|].
      2:{ intros i' x Hi' Ex Ix. apply (decode_In vs Nvs) in Ix as (i'' & Ex' & Tb). assert (i'' = i').
          { apply (proj1 (NoDup_nth_error vs) Nvs); [apply nth_error_Some; congruence|congruence]. } subst i''.
          rewrite E6, Z.mul_comm, Z.mul_pow2_bits_low in Tb by lia. discriminate. }
      replace (j + (i - j))%nat with i by lia. rewrite (skipn_nth vs i v E1).
      rewrite (popcount_decode vs c Hc). cbn [mloop]. 
      pose proof (decode_nodup vs Nvs c) as Nd. rewrite E3 in Nd, HF, HK. 
      destruct (decode vs c) as [|a l] eqn:Edc; [discriminate|]. rewrite <- Edc in *.
      change (fold_right (fun v t => one v + t) 0 (decode vs c)) with (weigh one (decode vs c)). rewrite weigh_one. 
      change (best_size (m, decode vs mask, fd)) with m. change (best_size (m, mask, fd)) with m.
      destruct (size + Z.of_nat (length (decode vs c)) <=? m); [exists m, mask, fd; auto|].
      rewrite E2, (lim_cut_eq dB d i v size m HD E1).
      assert (Mv : mem v (decode vs c) = true) by (apply mem_In; rewrite E3; left; reflexivity). rewrite Mv.
      destruct (lim_cut d v size m); [exists m, mask, fd; auto|].
      destruct (Hnb i v E1) as (nu & En & Hnu & Hx). unfold dgetM. rewrite En. cbn [bind]. cbv zeta. rewrite E3, (discard_head _ _ Nd).
      destruct (below_step used c i q (proj1 Hu) HB Hq E6) as (B1 & B2 & B3). rewrite <- E5 in B1, B2.
      pose proof (pow_lt vs i v E1) as Hp.
      assert (EU : decode vs (Z.lor used (2 ^ Z.of_nat i)) = decode vs used ++ [v]) by (apply decode_lor_high; [exact E1|lia]).
      assert (EA : decode vs (Z.land (Z.land c (c - 1)) nu) = inter (decode vs (Z.land c (c - 1))) (nbr g v)).
      { rewrite (decode_land vs Nvs _ nu). apply inter_nb, Hx. }
      destruct (Hrec (Z.lor used (2 ^ Z.of_nat i)) (Z.land (Z.land c (c - 1)) nu) (size + 1) m mask fd) as (m' & mask' & fd' & R1 & R2 & R3).
      { apply lor_bound; assumption. }
      { apply land_bound. exact E4. }
      { exact Hm. }
      { apply below_land, B2. }
      { rewrite EA. pose proof (inter_len (decode vs (Z.land c (c - 1))) (nbr g v)). cbn in HF. lia. }
      rewrite R1. cbn [bind]. rewrite EA, EU in R3. change (one v) with 1. rewrite R3.
      change (was_found (m', mask', fd')) with fd'. change (was_found (m', decode vs mask', fd')) with fd'.
      destruct (stop && fd'); [exists m', mask', fd'; auto|].
      apply IH; [exact E4|exact R2|exact B1|cbn in HF; lia| |cbn in HK; lia].
      intros b Tb. rewrite E5 in Tb. pose proof (cleared_bits c i q b Hq E6 Tb). lia.
    Qed.

    Lemma bsearch_ok : forall f used c size m mask fd, 0 <= used < 2 ^ Z.of_nat n -> 0 <= c < 2 ^ Z.of_nat n -> 0 <= mask < 2 ^ Z.of_nat n -> below used c -> (length (decode vs c) < f)%nat ->
       agree (bsearch nb dB stop n f used c size (m, mask, fd)) (msearch g one d stop vs f (decode vs c) size (decode vs used) (m, decode vs mask, fd)).
    Proof.
      induction f as [|f IH]; intros used c size m mask fd Hu Hc Hm HB HF; [lia|]. rewrite bsearch_S, msearch_S.
      destruct (Z.eqb_spec c 0) as [->|Nc].
      - rewrite decode_0. change (best_size (m, decode vs mask, fd)) with m. change (best_size (m, mask, fd)) with m.
        destruct (m <? size); eexists _, _, _; (split; [reflexivity|]); auto.
      - destruct (decode vs c) as [|a l] eqn:E; [apply (decode_nil vs c Hc) in E; congruence|]. rewrite <- E in *. clear a l E.
        apply (bloop_ok f size used IH Hu (S n) 0 c m mask fd); [exact Hc|exact Hm|exact HB|lia| |].
        + intros b Tb. destruct (Z.lt_ge_cases b 0) as [L|L]; [rewrite Z.testbit_neg_r in Tb by exact L; discriminate|exact L].
        + assert (L : (length (decode vs c) <= n)%nat); [|lia]. apply NoDup_incl_length; [apply decode_nodup, Nvs|]. intros x. apply decode_incl.
    Qed.
  End Rec.

  Hypothesis Hl : loop_free g.

  Lemma bstages_ok : forall suffix pre, vs = pre ++ suffix ->
    exists m mask fd lB, bstages nb n (length suffix) (Z.of_nat (length pre)) (2 ^ Z.of_nat n - 1) = Ret ((m, mask, fd), lB) /\
      0 <= mask < 2 ^ Z.of_nat n /\ fst (stages g one true vs suffix) = (m, decode vs mask, fd) /\
      lim_rel (Some lB) (Some (snd (stages g one true vs suffix))).
  Proof.
    induction suffix as [|u rest IH]; intros pre Ev; cbn [length bstages stages].
    - exists 0, 0, false, []. split; [reflexivity|]. split; [split; [lia|apply Z.pow_pos_nonneg; lia]|]. rewrite decode_0. split; [reflexivity|]. intros i v _. reflexivity.
    - assert (Ev' : vs = (pre ++ [u]) ++ rest) by (rewrite <- app_assoc; exact Ev).
      destruct (IH _ Ev') as (m & mask & fd & lB & E1 & E2 & E3 & E4). rewrite app_length in E1. cbn [length] in E1.
      replace (Z.of_nat (length pre + 1)) with (Z.of_nat (length pre) + 1) in E1 by lia. rewrite E1. cbn [bind].
      destruct (stages g one true vs rest) as [st largest]. cbn [fst snd] in E3, E4. subst st.
      set (i := length pre) in *. assert (Ei : nth_error vs i = Some u) by (rewrite Ev; unfold i; rewrite nth_error_app2, Nat.sub_diag by lia; reflexivity).
      rewrite Z.shiftl_mul_pow2, Z.mul_1_l by lia. destruct (Hnb i u Ei) as (nu & En & Hnu & Hx). unfold dgetM. rewrite En. cbn [bind].
      pose proof (idx_lt vs i u Ei) as Hi. rewrite (shift_mask (Z.of_nat n) (Z.of_nat i)) by lia.
      pose proof (suffix_mask vs i ltac:(lia)) as Sm. set (S0 := (2 ^ (Z.of_nat n - Z.of_nat i) - 1) * 2 ^ Z.of_nat i) in *.
      assert (Esk : skipn i vs = u :: rest) by (rewrite Ev; unfold i; rewrite skipn_app, skipn_all, Nat.sub_diag; reflexivity). rewrite Esk in Sm.
      assert (S0r : 0 <= S0 < 2 ^ Z.of_nat n).
      { unfold S0. pose proof (Z.pow_pos_nonneg 2 (Z.of_nat i)). pose proof (Z.pow_pos_nonneg 2 (Z.of_nat n - Z.of_nat i)).
        assert (2 ^ Z.of_nat n = 2 ^ (Z.of_nat n - Z.of_nat i) * 2 ^ Z.of_nat i) by (rewrite <- Z.pow_add_r by lia; f_equal; lia). nia. }
      assert (EA : decode vs (Z.land S0 nu) = inter (u :: rest) (nbr g u)).
      { rewrite (decode_land vs Nvs _ nu), Sm. apply inter_nb, Hx. }
      destruct (bsearch_ok (Some lB) (Some largest) true E4 (S n) (2 ^ Z.of_nat i) (Z.land S0 nu) 1 m mask false) as (m' & mask' & fd' & R1 & R2 & R3).
      { apply (pow_lt vs i u Ei). }
      { apply land_bound, S0r. }
      { exact E2. }
      { intros b Tb. rewrite Z.land_spec in Tb. apply andb_true_iff in Tb as [T1 T2].
        assert (b0 : 0 <= b) by (destruct (Z.lt_ge_cases b 0) as [L|L]; [rewrite Z.testbit_neg_r in T1 by exact L; discriminate|exact L]).
        apply Z.pow_lt_mono_r; [lia|exact b0|]. destruct (Z.lt_trichotomy b (Z.of_nat i)) as [L|[L|L]]; [| |exact L].
        - unfold S0 in T1. rewrite Z.mul_pow2_bits_low in T1 by lia. discriminate.
        - exfalso. subst b. assert (X : In u (nbr g u)) by (apply Hx, (decode_In vs Nvs); exists i; split; assumption).
          apply (nbr_In g) in X as (w & Hw). rewrite Hl in Hw. discriminate. }
      { assert (L : (length (decode vs (Z.land S0 nu)) <= n)%nat); [|lia]. apply NoDup_incl_length; [apply decode_nodup, Nvs|]. intros x. apply decode_incl. }
      rewrite EA, (decode_pow vs i u Ei) in R3. change (fst (m, mask, fd), false) with (m, mask, false). rewrite R1. cbn [bind].
      eexists _, _, _, _. split; [reflexivity|]. split; [exact R2|]. cbn [fst snd]. change (one u) with 1. rewrite R3. split; [reflexivity|].
      intros i' v' Ei'. cbn [dget]. change (best_size (m', decode vs mask', fd')) with m'. change (best_size (m', mask', fd')) with m'.
      destruct (Z.eqb_spec (2 ^ Z.of_nat i) (2 ^ Z.of_nat i')) as [E'|E'].
      + apply Z.pow_inj_r in E'; [|lia|lia|lia]. apply Nat2Z.inj in E'. subst i'. rewrite Ei in Ei'. inversion Ei'; subst. rewrite Z.eqb_refl. reflexivity.
      + destruct (Z.eqb_spec u v') as [->|]; [|apply (E4 i' v' Ei')]. exfalso. apply E'. f_equal. f_equal. apply (proj1 (NoDup_nth_error vs) Nvs); [exact Hi|congruence].
  Qed.
End Binary.

Lemma pardalos_binary_same g ord : undirected g -> (forall k l, Permutation (ord k l) l) -> pardalos_binary g ord = pardalos g ord.
Proof.
  intros Hg Ho. destruct (induced_perm ord g Hg Ho) as (vs & E & Pv). unfold pardalos, pardalos_binary. rewrite E. cbn [bind].
  assert (Nvs : NoDup vs) by (apply (Permutation_NoDup (Permutation_sym Pv)), Hg).
  assert (Hvs : forall v, In v vs <-> vertex g v) by (intros v; split; apply Permutation_in; [exact Pv|symmetry; exact Pv]).
  destruct (bit_neighbors_ok g vs Hg Nvs Hvs) as (nb & En & Hnb). rewrite En. cbn [bind].
  pose proof (Z.pow_pos_nonneg 2 (Z.of_nat (length vs))) as Hp.
  destruct (bsearch_ok g vs Nvs nb Hnb None None false I (S (length vs)) 0 (2 ^ Z.of_nat (length vs) - 1) 0 0 0 false) as (m & mask & fd & R1 & R2 & R3).
  - lia.
  - lia.
  - lia.
  - intros j Hj. destruct (Z.lt_ge_cases j 0) as [L|L]; [rewrite Z.testbit_neg_r in Hj by exact L; discriminate|]. apply Z.pow_pos_nonneg; lia.
  - rewrite decode_all. lia.
  - rewrite R1. cbn [bind]. rewrite decode_all, !decode_0 in R3. rewrite R3. cbn [fst snd best_size]. rewrite pick_bits_decode, Z.shiftr_0_r by lia. reflexivity.
Qed.

Lemma ostergard_binary_same g : undirected g -> loop_free g -> g <> [] -> ostergard_binary g = ostergard g.
Proof.
  intros Hg Hl Ne. destruct (ostergard_order_ok g Hg Hl Ne) as (vs & E & Pv). unfold ostergard, ostergard_binary. rewrite E. cbn [bind].
  assert (Nvs : NoDup vs) by (apply (Permutation_NoDup (Permutation_sym Pv)), Hg).
  assert (Hvs : forall v, In v vs <-> vertex g v) by (intros v; split; apply Permutation_in; [exact Pv|symmetry; exact Pv]).
  destruct (bit_neighbors_ok g vs Hg Nvs Hvs) as (nb & En & Hnb). rewrite En. cbn [bind].
  destruct (bstages_ok g vs Nvs nb Hnb Hl vs [] eq_refl) as (m & mask & fd & lB & R1 & R2 & R3 & _). cbn [length] in R1. change (Z.of_nat 0) with 0 in R1.
  rewrite R1. cbn [bind fst snd best_size]. rewrite R3. cbn [fst snd]. rewrite pick_bits_decode, Z.shiftr_0_r by lia. reflexivity.
Qed.
