(** * The table of prime counts, and the quotient tables *)
From Coq Require Import ZArith List Lia Bool Znumtheory Sorted.
From Verif Require Import Base Py Dict Sums Lists Primes_Spec Core_Model Core_Spec Core_Props Sieves_Model Primes_Props PC_Model PC_Spec PC_Proofs PC_Proofs2.
Import ListNotations.
Open Scope Z_scope.

(** ** Positions in the list of primes *)
Section index.
  Context (N : Z) (ps : list Z) (HP : primes_upto N ps).

  Lemma upto_filter i : i <= N -> primes_upto i (firstn (bisect ps i) ps).
  Proof using HP.
    intros H. destruct HP as (S & I). rewrite bisect_firstn by exact S. split; [apply filter_sorted, S|]. intros p. rewrite filter_In, I, Z.leb_le. split; [tauto|]. intros (A & B). split; [split; [exact A|lia]|exact B].
  Qed.
  Lemma pi_bisect i : i <= N -> Z.of_nat (bisect ps i) = pi i.
  Proof using HP. intros H. rewrite <- (pi_list i _ (upto_filter i H)). unfold zlen. rewrite firstn_length_le by apply bisect_le. reflexivity. Qed.
  Lemma pi_range i : i <= N -> 0 <= pi i <= zlen ps.
  Proof using HP. intros H. rewrite <- (pi_bisect i H). unfold zlen. pose proof (bisect_le ps i). lia. Qed.
  Lemma pi_pref i : i <= N -> primes_upto i (pref ps (pi i)).
  Proof using HP. intros H. unfold pref. rewrite <- (pi_bisect i H), Nat2Z.id. apply upto_filter, H. Qed.
  Lemma pi_rd i j : i <= N -> 0 <= j < zlen ps -> (rd ps j <= i <-> j < pi i).
  Proof using HP.
    intros H Hj. pose proof (pi_pref i H) as U. pose proof (pi_range i H). split; intros X.
    - assert (In (rd ps j) (pref ps (pi i))) as I by (apply U; split; [apply (ps_prime N), Hj; exact HP|exact X]). apply pref_In in I as (j' & A & B & E); [|lia].
      destruct (Z.lt_trichotomy j j') as [L|[L|L]]; [pose proof (ps_lt N ps HP j j')|subst|pose proof (ps_lt N ps HP j' j)]; lia.
    - assert (In (rd ps j) (pref ps (pi i))) as I by (apply pref_In; [lia|]; exists j; repeat split; lia). apply U in I. apply I.
  Qed.
  Lemma pi_full : zlen ps = pi N.
  Proof using HP. apply pi_list, HP. Qed.
End index.
Lemma pi_nonneg i : 0 <= pi i.
Proof. destruct (upto_pi i) as (l & _ & <-). apply zlen_nonneg. Qed.
Lemma pi_mono a b : a <= b -> pi a <= pi b.
Proof. intros H. destruct (upto_pi b) as (l & U & E). rewrite <- E. apply (pi_range b l U a H). Qed.

(** ** Slices *)
Lemma splice_ok t lo hi v : 0 <= lo <= hi -> hi <= zlen t -> zlen (splice t lo hi (repeat v (Z.to_nat (hi - lo)))) = zlen t /\
  forall i, 0 <= i -> rd (splice t lo hi (repeat v (Z.to_nat (hi - lo)))) i = if (lo <=? i) && (i <? hi) then v else rd t i.
Proof.
  intros H L. unfold splice. rewrite Z.max_r by lia. split.
  - rewrite !zlen_app, zlen_firstn, zlen_skipn, zlen_repeat by lia. lia.
  - intros i Hi. rewrite !rd_app, zlen_firstn, rd_firstn, zlen_repeat by lia. rewrite Z.min_l, Z2Nat.id by lia.
    destruct (Z.ltb_spec i lo); [destruct (Z.leb_spec lo i); [lia|]; reflexivity|]. destruct (Z.leb_spec lo i); [|lia]. cbn [andb].
    destruct (Z.ltb_spec (i - lo) (hi - lo)); destruct (Z.ltb_spec i hi); try lia.
    + unfold rd. destruct (Z.ltb_spec (i - lo) 0); [lia|]. apply nth_repeat_lt || (rewrite nth_indep with (d' := v) by (rewrite repeat_length; lia); apply nth_repeat).
    + rewrite rd_skipn by lia. f_equal. lia.
Qed.

Lemma pi_table_ok n : 2 <= n -> exists ps t, pi_table n = Ret (ps, t) /\ primes_upto n ps /\ zlen t = n + 1 /\ forall i, 0 <= i <= n -> rd t i = pi i.
Proof.
  intros Hn. unfold pi_table. destruct (C14_primes n) as (ps & -> & U). cbn [bind].
  assert (G : forall l k t last i, 0 <= k -> k + zlen l = zlen ps -> l = skipn (Z.to_nat k) ps -> zlen t = n + 1 -> (k = 0 /\ last = 0 \/ 1 <= k /\ last = rd ps (k - 1) /\ i = Some (k - 1)) -> (forall j, 0 <= j < last -> rd t j = pi j) ->
     exists t' last' i', pi_fill l k t last i = (t', last', i') /\ zlen t' = n + 1 /\ (zlen ps = 0 \/ last' = rd ps (zlen ps - 1) /\ i' = Some (zlen ps - 1)) /\ forall j, 0 <= j < last' -> rd t' j = pi j).
  { induction l as [|p l IH]; intros k t last i Hk Ek El Ht HL HT; cbn [pi_fill].
    - unfold zlen in Ek at 1. cbn [length] in Ek. rewrite Z.add_0_r in Ek. subst k. exists t, last, i. repeat split; auto. destruct HL as [(A & B)|(A & B & C)]; auto.
    - assert (Lk : k < zlen ps) by (unfold zlen in *; cbn [length] in Ek; lia). assert (Ep : p = rd ps k /\ l = skipn (Z.to_nat (k + 1)) ps).
      { replace (Z.to_nat (k + 1)) with (S (Z.to_nat k)) by lia. unfold rd. destruct (Z.ltb_spec k 0); [lia|]. clear - El. revert ps El. induction (Z.to_nat k) as [|m IHm]; intros ps El; [cbn [skipn] in El; subst ps; split; reflexivity|].
        destruct ps as [|q ps]; [discriminate|]. cbn [skipn] in El. destruct (IHm ps El) as (A & B). cbn [nth]. split; [exact A|]. change (skipn (S (S m)) (q :: ps)) with (skipn (S m) ps). exact B. }
      destruct Ep as (Ep & El'). pose proof (ps_ge2 n ps U k ltac:(lia)). pose proof (ps_bound n ps U k ltac:(lia)).
      assert (0 <= last < p). { destruct HL as [(A & B)|(A & B & C)]; [lia|]. pose proof (ps_lt n ps U (k - 1) k). pose proof (ps_ge2 n ps U (k - 1)). lia. }
      destruct (splice_ok t last p k ltac:(lia) ltac:(lia)) as (S1 & S2).
      apply (IH (k + 1)); auto; try lia; [unfold zlen in *; cbn [length] in Ek; lia|right; split; [lia|]; replace (k + 1 - 1) with k by lia; auto|].
      intros j Hj. rewrite S2 by lia. destruct (Z.leb_spec last j) as [L|L]; [|cbn [andb]; apply HT; lia]. destruct (Z.ltb_spec j p) as [Lp|]; [|lia]. cbn [andb]. symmetry.
      destruct (Z.lt_trichotomy (pi j) k) as [X|[X|X]]; [|exact X|].
      + exfalso. destruct HL as [(A & B)|(A & B & C)]; [pose proof (pi_nonneg j); lia|]. assert (rd ps (k - 1) <= j) as Y by lia. apply (pi_rd n ps U) in Y; lia.
      + apply (pi_rd n ps U) in X; lia. }
  destruct (upto_first n ps U Hn) as (Z1 & _).
  destruct (G ps 0 (repeat 0 (Z.to_nat (n + 1))) 0 None) as (t' & last' & i' & E & L & HL & HT); auto; try lia; [rewrite zlen_repeat; lia|].
  rewrite E. destruct HL as [|(HL & ->)]; [lia|]. pose proof (ps_bound n ps U (zlen ps - 1) ltac:(lia)). pose proof (ps_ge2 n ps U (zlen ps - 1) ltac:(lia)).
  destruct (splice_ok t' last' (n + 1) (zlen ps - 1 + 1) ltac:(lia) ltac:(lia)) as (S1 & S2). eexists _, _. split; [reflexivity|]. split; [exact U|]. split; [lia|]. intros i Hi. rewrite S2 by lia.
  destruct (Z.leb_spec last' i) as [X|X]; [|cbn [andb]; apply HT; lia]. destruct (Z.ltb_spec i (n + 1)); [|lia]. cbn [andb]. rewrite HL in X. apply (pi_rd n ps U) in X; [|lia|lia]. pose proof (pi_range n ps U i). lia.
Qed.

Lemma pi_table_small n : n < 2 -> pi_table n = Raise UnboundLocalError.
Proof.
  intros H. unfold pi_table. destruct (C14_primes n) as (ps & -> & U). cbn [bind]. destruct ps as [|p ps]; [reflexivity|]. exfalso. destruct (proj1 (proj2 U p) (or_introl eq_refl)) as (A & B). apply prime_ge_2 in A. lia.
Qed.

(** ** The values n//i *)
Lemma pyget_last {A} (l : list A) x : pyget (l ++ [x]) (-1) = Ret x.
Proof.
  unfold pyget, pyidx. rewrite app_length. cbn [length]. change (0 <=? -1) with false. cbn [andb]. destruct (Z.leb_spec (- Z.of_nat (length l + 1)) (-1)); [|lia]. change (-1 <? 0) with true. cbn [andb].
  replace (Z.to_nat (-1 + Z.of_nat (length l + 1))) with (length l) by lia. rewrite nth_error_app2, Nat.sub_diag by lia. reflexivity.
Qed.
Lemma quotients_ok n r : 1 <= r -> r * r <= n -> exists V, quotients n r = Ret V /\ StronglySorted Z.gt V /\ (forall v, In v V -> 1 <= v <= n) /\ (forall i, 1 <= i <= n -> In (n / i) V) /\
  (forall v, 1 <= v <= r -> In v V) /\ (forall v p, In v V -> 1 <= p <= v -> In (v / p) V).
Proof.
  intros Hr H. unfold quotients. assert (R1 : r <= n / r) by (apply Z.div_le_lower_bound; lia).
  rewrite (mapM_ret _ (fun i => n / i)) by (intros i Hi; apply zrange_In in Hi; unfold pydiv; destruct (Z.eqb_spec i 0); [lia|reflexivity]). cbn [bind].
  assert (El : pyget (map (fun i => n / i) (zrange 1 (r + 1))) (-1) = Ret (n / r)) by (rewrite zrange_snoc by lia; rewrite map_app; apply pyget_last).
  rewrite El. cbn [bind]. eexists. split; [reflexivity|].
  assert (DIV : forall i, 1 <= i -> r <= i -> n / i <= n / r) by (intros i A B; apply Z.div_le_compat_l; lia).
  assert (DEC : forall i, 1 <= i < r -> n / (i + 1) < n / i).
  { intros i Hi. assert (n / (i + 1) + 1 <= n / i); [|lia]. apply Z.div_le_lower_bound; [lia|]. pose proof (Z.mul_div_le n (i + 1) ltac:(lia)). assert (r <= n / (i + 1)) by (apply Z.div_le_lower_bound; nia). nia. }
  split.
  - assert (S2 : forall m, StronglySorted Z.gt (rev (zrange 1 m))).
    { intros m. destruct (Z_le_gt_dec m 1); [rewrite zrange_nil by lia; constructor|]. replace m with (1 + (m - 1)) by lia. assert (0 <= m - 1) as Hm by lia. pattern (m - 1). apply natlike_ind; [constructor| |exact Hm]. intros k Hk IH. unfold Z.succ. rewrite Z.add_assoc, zrange_snoc, rev_app_distr by lia. cbn [rev app]. constructor; [exact IH|]. apply Forall_forall. intros x Hx. apply in_rev, zrange_In in Hx. lia. }
    assert (S1 : forall m, 0 <= m <= r -> StronglySorted Z.gt (map (fun i => n / i) (zrange (r + 1 - m) (r + 1)) ++ rev (zrange 1 (n / r)))).
    { intros m Hm. assert (0 <= m) as Hm' by lia. revert Hm. pattern m. apply natlike_ind; [|intros k Hk IH HM|exact Hm'].
      - intros _. rewrite zrange_nil by lia. apply S2.
      - unfold Z.succ in *. rewrite zrange_cons by lia. replace (r + 1 - (k + 1) + 1) with (r + 1 - k) by lia. cbn [map app]. constructor; [apply IH; lia|]. apply Forall_forall. intros x Hx. set (i := r + 1 - (k + 1)) in *. apply in_app_or in Hx as [Hx|Hx].
        + apply in_map_iff in Hx as (j & <- & Hj). apply zrange_In in Hj. assert (n / j <= n / (i + 1)) by (apply Z.div_le_compat_l; lia). pose proof (DEC i ltac:(lia)). lia.
        + apply in_rev, zrange_In in Hx. assert (n / r <= n / i) by (apply Z.div_le_compat_l; lia). lia. }
    replace 1 with (r + 1 - r) at 1 by lia. apply S1. lia.
  - assert (QI : forall i, 1 <= i <= n -> In (n / i) (map (fun i => n / i) (zrange 1 (r + 1)) ++ rev (zrange 1 (n / r)))).
    { intros i Hi. apply in_or_app. destruct (Z_le_gt_dec i r); [left; apply in_map_iff; exists i; split; [reflexivity|]; apply zrange_In; lia|]. pose proof (DIV i ltac:(lia) ltac:(lia)).
      assert (1 <= n / i) by (apply Z.div_le_lower_bound; lia). destruct (Z.eq_dec (n / i) (n / r)) as [E|]; [|right; apply -> in_rev; apply zrange_In; lia]. left. apply in_map_iff. exists r. split; [auto|]. apply zrange_In. lia. }
    assert (SI : forall v, 1 <= v <= n / r -> In v (map (fun i => n / i) (zrange 1 (r + 1)) ++ rev (zrange 1 (n / r)))).
    { intros v Hv. apply in_or_app. destruct (Z.eq_dec v (n / r)) as [-> |]; [left; apply in_map_iff; exists r; split; [reflexivity|]; apply zrange_In; lia|right; apply -> in_rev; apply zrange_In; lia]. }
    assert (R2 : n / r <= n) by (apply Z.div_le_upper_bound; nia).
    split; [|split; [exact QI|split; [intros v Hv; apply SI; lia|]]].
    + intros v Hv. apply in_app_or in Hv as [Hv|Hv]; [apply in_map_iff in Hv as (i & <- & Hi); apply zrange_In in Hi; split; [apply Z.div_le_lower_bound; nia|apply Z.div_le_upper_bound; nia]|apply in_rev, zrange_In in Hv; lia].
    + intros v p Hv Hp. apply in_app_or in Hv as [Hv|Hv].
      * apply in_map_iff in Hv as (i & <- & Hi). apply zrange_In in Hi. rewrite Z.div_div by lia. apply QI. assert (1 <= i * p) by nia. split; [lia|]. pose proof (Z.mul_div_le n i ltac:(lia)). nia.
      * apply in_rev, zrange_In in Hv. apply SI. split; [apply Z.div_le_lower_bound; lia|]. assert (v / p <= v) by (apply Z.div_le_upper_bound; nia). lia.
Qed.
