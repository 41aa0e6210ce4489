(** * Proofs about core.py, continued: Chinese remaindering *)
From Coq Require Import ZArith List Bool Lia Znumtheory.
From Verif Require Import Base PyFloat_Model Core_Model Core_Spec Core_Proofs.
Import ListNotations.
Open Scope Z_scope.

Lemma gcd_mul_coprime a b c : Z.gcd (a * b) c = 1 <-> Z.gcd a c = 1 /\ Z.gcd b c = 1.
Proof.
  rewrite !Zgcd_1_rel_prime. split.
  - intros H. split; apply rel_prime_div with (a * b); auto; [exists b|exists a]; ring.
  - intros [H1 H2]. apply rel_prime_sym. apply rel_prime_mult; apply rel_prime_sym; assumption.
Qed.

Lemma coprime_mul_divide a b n : Z.gcd a b = 1 -> (a | n) -> (b | n) -> (a * b | n).
Proof.
  intros G [q ->] D.
  rewrite Z.mul_comm in D. apply Z.gauss in D; [|rewrite Z.gcd_comm; exact G].
  destruct D as [k ->]. exists k. ring.
Qed.

Lemma gcd_zprod ms c : Z.gcd (zprod ms) c = 1 <-> (forall m, In m ms -> Z.gcd m c = 1).
Proof.
  induction ms as [|m ms IH]; cbn [In].
  - rewrite zprod_nil, Z.gcd_1_l. split; [tauto|reflexivity].
  - change (zprod (m :: ms)) with (m * zprod ms). rewrite gcd_mul_coprime, IH.
    split; [intros [? ?] x [<-|?]; auto|]. intros H. split; auto.
Qed.

Lemma pairwise_coprime_app ms c :
  pairwise_coprime (ms ++ [c]) <-> pairwise_coprime ms /\ (forall m, In m ms -> Z.gcd m c = 1).
Proof.
  unfold pairwise_coprime. induction ms as [|m ms IH]; simpl.
  - split; [intros; split; [constructor|tauto]|]. intros. repeat constructor.
  - split.
    + intros H. inversion H as [|x y H1 H2]; subst. apply IH in H2 as [H2 H3].
      rewrite Forall_app in H1. destruct H1 as [H1 H4]. inversion H4; subst.
      split; [constructor; auto|]. intros x [<-|?]; auto.
    + intros [H1 H2]. inversion H1 as [|x y H3 H4]; subst. constructor.
      * rewrite Forall_app. split; [exact H3|]. constructor; [|constructor]. apply H2; auto.
      * apply IH. split; auto.
Qed.

Lemma zprod_pos ms : (forall m, In m ms -> 0 < m) -> 0 < zprod ms.
Proof.
  induction ms as [|m ms IH]; simpl; intros H; [reflexivity|].
  change (zprod (m :: ms)) with (m * zprod ms).
  apply Z.mul_pos_pos; auto.
Qed.

Lemma zprod_divide a l : In a l -> (a | zprod l).
Proof.
  induction l as [|b l IH]; intros Hin; [destruct Hin|]. rewrite zprod_cons.
  destruct Hin as [->|Hin]; [apply Z.divide_factor_l|apply Z.divide_mul_r; auto].
Qed.

Lemma zprod_snoc ms c : zprod (ms ++ [c]) = zprod ms * c.
Proof. rewrite zprod_app. unfold zprod at 2. simpl. ring. Qed.

Lemma chinese_step_correct x m xi mi : 0 < m -> 0 < mi -> Z.gcd m mi = 1 ->
  exists y, chinese_step (x, m) (xi, mi) = Ret (y, m * mi) /\
    0 <= y < m * mi /\ (m | y - x) /\ (mi | y - xi).
Proof.
  intros Hm Hmi G. unfold chinese_step.
  destruct (ext_gcd_correct m mi) as (u & v & -> & E). rewrite G in *. cbn [bind].
  simpl (negb _). cbv iota. unfold pymod.
  assert (0 < m * mi) by (apply Z.mul_pos_pos; lia).
  destruct (Z.eqb_spec (m * mi) 0); [lia|]. cbn [bind].
  eexists. split; [reflexivity|]. split; [apply Z.mod_pos_bound; lia|].
  set (z := u * m * xi + v * mi * x).
  pose proof (Z.div_mod z (m * mi) ltac:(lia)) as D.
  assert (z mod (m * mi) = z - (m * mi) * (z / (m * mi))) as -> by lia.
  assert (z = x + u * m * (xi - x)) by (unfold z; replace (v * mi) with (1 - u * m) by lia; ring).
  assert (z = xi + v * mi * (x - xi)) by (unfold z; replace (u * m) with (1 - v * mi) by lia; ring).
  split.
  - exists (u * (xi - x) - mi * (z / (m * mi))).
    replace z with (x + u * m * (xi - x)) at 1 by lia. ring.
  - exists (v * (x - xi) - m * (z / (m * mi))).
    replace z with (xi + v * mi * (x - xi)) at 1 by lia. ring.
Qed.

Lemma chinese_loop cs : forall x m pre,
  0 < m -> m = zprod (map snd pre) -> solves x pre ->
  (forall c, In c cs -> 0 < snd c) ->
  (forall c, In c pre -> 0 < snd c) ->
  pairwise_coprime (map snd pre) ->
  (pairwise_coprime (map snd (pre ++ cs)) /\
   exists y, foldM chinese_step cs (x, m) = Ret (y, zprod (map snd (pre ++ cs))) /\
     solves y (pre ++ cs) /\ (cs <> [] -> 0 <= y < zprod (map snd (pre ++ cs)))) \/
  (~ pairwise_coprime (map snd (pre ++ cs)) /\ foldM chinese_step cs (x, m) = Raise ValueError).
Proof.
  induction cs as [|[xi mi] cs IH]; intros x m pre Hm Em Hs Hpos Hpre Hpc.
  - left. rewrite app_nil_r. split; [exact Hpc|]. exists x. simpl. subst m. repeat split; auto; congruence.
  - cbn [foldM]. replace (pre ++ (xi, mi) :: cs) with ((pre ++ [(xi, mi)]) ++ cs) by (rewrite <- app_assoc; reflexivity).
    assert (Hmi : 0 < mi) by (apply (Hpos (xi, mi)); left; reflexivity).
    destruct (Z.eq_dec (Z.gcd m mi) 1) as [G|G].
    + destruct (chinese_step_correct x m xi mi Hm Hmi G) as (y & -> & Hy & D1 & D2). cbn [bind].
      assert (Epc : pairwise_coprime (map snd (pre ++ [(xi, mi)]))).
      { rewrite map_app. simpl. apply pairwise_coprime_app. split; [exact Hpc|].
        apply gcd_zprod. rewrite <- Em. exact G. }
      assert (Hs' : solves y (pre ++ [(xi, mi)])).
      { intros a b [Hin|[Heq|[]]]%in_app_or.
        - replace (y - a) with ((y - x) + (x - a)) by ring. apply Z.divide_add_r.
          + apply Z.divide_trans with m; [|exact D1]. subst m.
            clear -Hin. induction pre as [|[c d] pre IH]; [destruct Hin|].
            simpl. change (zprod (d :: map snd pre)) with (d * zprod (map snd pre)).
            destruct Hin as [Heq|Hin]; [inversion Heq; apply Z.divide_factor_l|].
            apply Z.divide_mul_r. auto.
          + apply Hs, Hin.
        - inversion Heq; subst. exact D2. }
      specialize (IH y (m * mi) (pre ++ [(xi, mi)])).
      destruct IH as [[H1 (z & Ez & Hz & Hb)]|H1].
      * nia.
      * rewrite map_app. simpl. rewrite zprod_snoc. congruence.
      * exact Hs'.
      * intros c Hc. apply Hpos. right. exact Hc.
      * intros c [Hc|[<-|[]]]%in_app_or; auto.
      * exact Epc.
      * left. split; [exact H1|]. exists z. repeat split; auto.
        -- destruct cs as [|c cs].
           ++ simpl in Ez. inversion Ez; subst. lia.
           ++ apply Hb; congruence.
        -- destruct cs as [|c cs].
           ++ simpl in Ez. inversion Ez; subst. lia.
           ++ apply Hb; congruence.
      * right. exact H1.
    + right. split.
      * intros Hp. apply G. rewrite Em. apply gcd_zprod.
        rewrite !map_app in Hp. simpl in Hp.
        assert (Hp' : pairwise_coprime (map snd pre ++ [mi])).
        { revert Hp. unfold pairwise_coprime. clear. generalize (map snd pre ++ [mi]) (map snd cs).
          intros l l'. induction l as [|a l IH]; simpl; intros H; [constructor|].
          inversion H; subst. rewrite Forall_app in *. constructor; tauto. }
        apply pairwise_coprime_app in Hp'. apply Hp'.
      * unfold chinese_step. destruct (ext_gcd_correct m mi) as (u & v & -> & E). cbn [bind].
        destruct (Z.eqb_spec (Z.gcd m mi) 1); [contradiction|]. reflexivity.
Qed.

Lemma pairwise_coprime_single a : pairwise_coprime [a].
Proof. repeat constructor. Qed.

Lemma chinese_correct c1 c2 cs :
  let L := c1 :: c2 :: cs in
  (forall c, In c L -> 0 < snd c) ->
  (pairwise_coprime (map snd L) /\
     exists x, chinese L = Ret x /\ 0 <= x < zprod (map snd L) /\ solves x L) \/
  (~ pairwise_coprime (map snd L) /\ chinese L = Raise ValueError).
Proof.
  intros L Hpos. destruct c1 as [x0 m0].
  destruct (chinese_loop (c2 :: cs) x0 m0 [(x0, m0)]) as [[H1 (y & E & Hs & Hb)]|[H1 E]].
  - apply (Hpos (x0, m0)). left; reflexivity.
  - unfold zprod; simpl; lia.
  - intros a m [Heq|[]]. inversion Heq. rewrite Z.sub_diag. apply Z.divide_0_r.
  - intros c Hc. apply Hpos. right. exact Hc.
  - intros c [<-|[]]. apply Hpos. left. reflexivity.
  - apply pairwise_coprime_single.
  - left. split; [exact H1|]. exists y. split; [|split; [apply Hb; congruence|exact Hs]].
    unfold chinese, L. rewrite E. reflexivity.
  - right. split; [exact H1|]. unfold chinese, L. rewrite E. reflexivity.
Qed.

(** Uniqueness of the solution modulo the product. *)
Lemma solves_unique L x y : pairwise_coprime (map snd L) ->
  (forall c, In c L -> 0 < snd c) ->
  0 <= x < zprod (map snd L) -> 0 <= y < zprod (map snd L) ->
  solves x L -> solves y L -> x = y.
Proof.
  intros Hpc Hpos Hx Hy Sx Sy.
  assert (D : (zprod (map snd L) | x - y)).
  { clear Hx Hy Hpos. induction L as [|[a m] L IH]; [apply Z.divide_1_l|].
    simpl. change (zprod (m :: map snd L)) with (m * zprod (map snd L)).
    inversion Hpc; subst. apply coprime_mul_divide.
    - rewrite Z.gcd_comm. apply gcd_zprod. intros k Hk. rewrite Z.gcd_comm.
      rewrite Forall_forall in H1. auto.
    - replace (x - y) with ((x - a) - (y - a)) by ring.
      apply Z.divide_sub_r; [apply Sx|apply Sy]; left; reflexivity.
    - apply IH; auto; intros b k Hk; [apply Sx|apply Sy]; right; exact Hk. }
  destruct D as [q Hq]. assert (q = 0) by nia. lia.
Qed.

(** ** Preconditioned version *)

Lemma crt_pre_loop_correct ms : forall prev pre,
  prev = zprod pre -> pairwise_coprime (pre ++ ms) -> (forall m, In m ms -> 2 <= m) ->
  exists pp il, crt_pre_loop prev ms = Ret (pp, il, zprod (pre ++ ms)) /\
    length pp = length ms /\ length il = length ms /\
    forall i, (i < length ms)%nat ->
      nth i pp 0 = zprod (pre ++ firstn i ms) /\
      (nth i pp 0 * nth i il 0) mod nth i ms 0 = 1.
Proof.
  induction ms as [|mi ms IH]; intros prev pre E Hpc H2; simpl.
  - exists [], []. rewrite app_nil_r. subst. repeat split; try (intros; lia).
  - replace (pre ++ mi :: ms) with ((pre ++ [mi]) ++ ms) in * by (rewrite <- app_assoc; reflexivity).
    assert (Hpc' : pairwise_coprime (pre ++ [mi])).
    { revert Hpc. unfold pairwise_coprime. clear. generalize (pre ++ [mi]) ms.
      intros l l'. induction l as [|a l IH]; simpl; intros H; [constructor|].
      inversion H; subst. rewrite Forall_app in *. constructor; tauto. }
    destruct (inverse_mod_correct prev mi) as (inv & -> & Hi & Ei).
    { apply H2; left; reflexivity. }
    { subst prev. apply gcd_zprod. apply pairwise_coprime_app in Hpc'. apply Hpc'. }
    cbn [bind].
    destruct (IH (prev * mi) (pre ++ [mi])) as (pp & il & -> & L1 & L2 & H).
    { rewrite zprod_snoc. congruence. }
    { exact Hpc. }
    { intros; apply H2; right; assumption. }
    cbn [bind]. exists (prev :: pp), (inv :: il). split; [reflexivity|].
    split; [simpl; congruence|]. split; [simpl; congruence|].
    intros [|i] Hlt; simpl in *.
    + rewrite app_nil_r. auto.
    + destruct (H i ltac:(lia)) as [Ha Hb]. split; [|exact Hb].
      rewrite Ha. f_equal. rewrite <- app_assoc. reflexivity.
Qed.

Lemma chinese_preconditioned_correct cs m0 ms :
  map snd cs = m0 :: ms -> 1 <= m0 -> (forall m, In m ms -> 2 <= m) ->
  pairwise_coprime (m0 :: ms) ->
  exists data x, crt_preconditioning_data (m0 :: ms) = Ret data /\
    chinese_preconditioned cs data = Ret x /\
    0 <= x < zprod (m0 :: ms) /\ solves x cs.
Proof.
  intros Ecs Hm0 H2 Hpc. unfold crt_preconditioning_data.
  rewrite Z.mul_1_l.
  destruct (crt_pre_loop_correct ms m0 [m0]) as (pp & il & -> & L1 & L2 & H).
  { unfold zprod; simpl; lia. }
  { exact Hpc. }
  { exact H2. }
  cbn [bind]. eexists.
  set (moduli := m0 :: ms) in *. set (pp1 := 1 :: pp). set (il1 := 1 :: il).
  assert (Lcs : length cs = length moduli) by (rewrite <- Ecs, map_length; reflexivity).
  assert (Lr : length (map fst cs) = length moduli) by (rewrite map_length; exact Lcs).
  set (res := map fst cs) in *.
  assert (Lm : (0 < length moduli)%nat) by (unfold moduli; simpl; lia).
  assert (Hmpos : forall m, In m moduli -> 0 < m).
  { intros m [<-|Hm]; [lia|]. specialize (H2 m Hm). lia. }
  assert (F : exists x, foldM (chinese_pre_step res moduli pp1 il1)
               (zrange 1 (Z.of_nat (length moduli))) (nth 0 res 0) = Ret x /\
     forall i, (i < length moduli)%nat -> (nth i moduli 0 | x - nth i res 0)).
  { destruct (foldM_inv (chinese_pre_step res moduli pp1 il1)
      (fun pre x => forall i, (i < 1 + length pre)%nat -> (nth i moduli 0 | x - nth i res 0))
      (zrange 1 (Z.of_nat (length moduli))) (nth 0 res 0)) as (x & Ex & Hx).
    - simpl. intros i Hi. replace i with 0%nat by lia. rewrite Z.sub_diag. apply Z.divide_0_r.
    - intros pre x post s Hsplit Hinv.
      assert (Ex : x = 1 + Z.of_nat (length pre) /\ (length pre < length moduli - 1)%nat).
      { assert (Hl : (length pre < Z.to_nat (Z.of_nat (length moduli) - 1))%nat).
        { rewrite <- zrange_length, Hsplit, app_length. simpl. lia. }
        split; [|lia].
        rewrite <- (zrange_nth 1 (Z.of_nat (length moduli)) (length pre) 0) by lia.
        rewrite Hsplit, app_nth2, Nat.sub_diag by lia. reflexivity. }
      destruct Ex as [Ex Hlt]. set (k := length pre) in *.
      assert (Lpp : length pp1 = length moduli) by (unfold pp1, moduli; simpl; congruence).
      assert (Lil : length il1 = length moduli) by (unfold il1, moduli; simpl; congruence).
      unfold chinese_pre_step.
      rewrite (pyget_nth res x 0), (pyget_nth il1 x 0), (pyget_nth moduli x 0), (pyget_nth pp1 x 0) by lia.
      cbn [bind]. replace (Z.to_nat x) with (S k) by lia.
      destruct (H k ltac:(unfold moduli in *; simpl in *; lia)) as [P1 P2].
      change (nth (S k) moduli 0) with (nth k ms 0).
      change (nth (S k) il1 0) with (nth k il 0). change (nth (S k) pp1 0) with (nth k pp 0).
      assert (Hmk : 2 <= nth k ms 0) by (apply H2, nth_In; unfold moduli in *; simpl in *; lia).
      unfold pymod. destruct (Z.eqb_spec (nth k ms 0) 0); [lia|]. cbn [bind].
      eexists. split; [reflexivity|].
      intros i Hi. rewrite app_length in Hi. simpl in Hi. fold k in Hi.
      set (P := nth k pp 0) in *. set (inv := nth k il 0) in *. set (mk := nth k ms 0) in *.
      destruct (Nat.eq_dec i (S k)) as [->|Hne].
      + change (nth (S k) moduli 0) with mk.
        apply Z.mod_divide; [lia|].
        set (d := nth (S k) res 0 - s).
        replace (s + (d * inv) mod mk * P - nth (S k) res 0) with ((d * inv) mod mk * P - d) by (unfold d; ring).
        rewrite Zminus_mod, Z.mul_mod_idemp_l by lia.
        replace (d * inv * P) with (d * (P * inv)) by ring.
        rewrite <- Z.mul_mod_idemp_r, P2, Z.mul_1_r by lia.
        rewrite <- Zminus_mod, Z.sub_diag. apply Z.mod_0_l. lia.
      + replace (s + _ - nth i res 0) with ((s - nth i res 0) + ((nth (S k) res 0 - s) * inv) mod mk * P) by ring.
        apply Z.divide_add_r; [apply Hinv; lia|]. apply Z.divide_mul_r.
        rewrite P1. change ([m0] ++ firstn k ms) with (firstn (S k) moduli).
        assert (Hin : In (nth i moduli 0) (firstn (S k) moduli)).
        { rewrite <- (firstn_skipn (S k) moduli) at 1.
          rewrite app_nth1 by (rewrite firstn_length; lia). apply nth_In. rewrite firstn_length. lia. }
        apply zprod_divide. exact Hin.
    - exists x. split; [exact Ex|]. intros i Hi. apply Hx. rewrite zrange_length. lia. }
  destruct F as (x & Ex & Hx).
  exists (x mod zprod moduli). split; [reflexivity|].
  pose proof (zprod_pos moduli Hmpos) as Hprod.
  unfold chinese_preconditioned. fold res.
  rewrite (pyget_nth res 0 0) by lia. cbn [bind]. simpl (Z.to_nat 0).
  fold pp1. fold il1. change (nth (Z.to_nat 0) res 0) with (nth 0 res 0).
  fold moduli. rewrite Ex. cbn [bind]. unfold pymod. change ([m0] ++ ms) with moduli.
  destruct (Z.eqb_spec (zprod moduli) 0); [lia|].
  split; [reflexivity|]. split; [apply Z.mod_pos_bound; lia|].
  intros a m Hin. apply (In_nth _ _ (0, 0)) in Hin as (i & Hi & Ei).
  assert (Ea : nth i res 0 = a) by (unfold res; change 0 with (fst (0, 0)); rewrite map_nth, Ei; reflexivity).
  assert (Em : nth i moduli 0 = m) by (rewrite <- Ecs; change 0 with (snd (0, 0)); rewrite map_nth, Ei; reflexivity).
  pose proof (Z.div_mod x (zprod moduli) ltac:(lia)) as D.
  assert (x mod zprod moduli - a = (x - a) - zprod moduli * (x / zprod moduli)) as -> by lia.
  apply Z.divide_sub_r.
  - rewrite <- Ea, <- Em. apply Hx. lia.
  - apply Z.divide_mul_l. rewrite <- Em.
    assert (Hin : In (nth i moduli 0) moduli) by (apply nth_In; lia).
    apply zprod_divide. exact Hin.
Qed.
