(** * pollard_rho_brent terminates and returns a divisor *)
From Coq Require Import ZArith List Bool Lia.
From Verif Require Import Base Loop Core_Model Core_Proofs NT_Euler Factor_Model.
Import ListNotations.
Open Scope Z_scope.

(** Pigeonhole for sequences. *)
Lemma seq_collision (f : nat -> Z) m :
  NoDup (map f (seq 0 m)) \/ exists i j, (i < j < m)%nat /\ f i = f j.
Proof.
  induction m as [|m IH]; [left; constructor|].
  destruct IH as [IH|(i & j & H & E)]; [|right; exists i, j; split; [lia|exact E]].
  destruct (in_dec Z.eq_dec (f m) (map f (seq 0 m))) as [H|H].
  - right. apply in_map_iff in H as (i & E & Hi%in_seq). exists i, m. split; [lia|exact E].
  - left. rewrite seq_S, map_app. cbn [map]. apply NoDup_rev in IH.
    rewrite <- (rev_involutive (_ ++ _)). apply NoDup_rev. rewrite rev_app_distr. cbn.
    constructor; [|exact IH]. rewrite <- in_rev. exact H.
Qed.

Lemma pigeonhole (f : nat -> Z) n : 0 <= n -> (forall i, 0 <= f i < n) ->
  exists i j, (i < j)%nat /\ Z.of_nat j <= n /\ f i = f j.
Proof.
  intros Hn H. destruct (seq_collision f (S (Z.to_nat n))) as [N|(i & j & Hij & E)].
  - exfalso. assert (L : (length (map f (seq 0 (S (Z.to_nat n)))) <= length (zrange 0 n))%nat).
    { apply NoDup_incl_length; [exact N|]. intros x Hx. apply in_map_iff in Hx as (i & <- & _).
      apply zrange_In, H. }
    rewrite map_length, seq_length, zrange_length in L. lia.
  - exists i, j. split; [lia|]. split; [lia|exact E].
Qed.

Section Rho.
  Context (n c : Z) (Hn : 4 <= n).
  Let f := rho_next n c.
  Let it (k : nat) (y : Z) := Nat.iter k f y.

  Lemma it_add a b y : it (a + b) y = it a (it b y).
  Proof. unfold it. apply iter_add. Qed.

  Lemma it_S a y : it (S a) y = f (it a y).
  Proof. reflexivity. Qed.

  Lemma f_range y : 0 <= f y < n.
  Proof. apply Z.mod_pos_bound. lia. Qed.

  (** After [n] steps the sequence is on its cycle. *)
  Lemma periodic y0 t : n <= Z.of_nat t ->
    exists l, (0 < l)%nat /\ Z.of_nat l <= n /\ it l (it t y0) = it t y0.
  Proof.
    intros Ht.
    destruct (pigeonhole (fun i => it (S i) y0) n) as (i & j & Hij & Hj & E); [lia|intros i; rewrite it_S; apply f_range|].
    exists (j - i)%nat. split; [lia|]. split; [lia|].
    replace t with ((t - S i) + S i)%nat by lia. rewrite <- it_add.
    replace (j - i + (t - S i + S i))%nat with ((t - S i) + S j)%nat by lia.
    rewrite !it_add, E. reflexivity.
  Qed.

  Lemma period_mul l x k : it l x = x -> it (k * l) x = x.
  Proof.
    intros H. induction k as [|k IH]; [reflexivity|]. cbn [Nat.mul]. rewrite it_add, IH. exact H.
  Qed.

  Lemma gcd_mul_1 a b : Z.gcd (a * b) n = 1 <-> Z.gcd a n = 1 /\ Z.gcd b n = 1.
  Proof.
    split; [|intros [H1 H2]; apply gcd_1_mul; assumption].
    intros H. split; apply Z.divide_1_r_nonneg; try apply Z.gcd_nonneg; rewrite <- H;
      apply Z.gcd_greatest; try apply Z.gcd_divide_r.
    - apply Z.divide_mul_l, Z.gcd_divide_l.
    - apply Z.divide_mul_r, Z.gcd_divide_l.
  Qed.

  Lemma rho_mul_spec x m y prod : exists prod',
    rho_mul n c x m (y, prod) = (it m y, prod') /\
    (Z.gcd prod' n = 1 <-> Z.gcd prod n = 1 /\
       forall j, (1 <= j <= m)%nat -> Z.gcd (x - it j y) n = 1).
  Proof.
    induction m as [|m (prod' & E & G)].
    - exists prod. split; [reflexivity|]. split; [|tauto]. intros H. split; [exact H|]. intros. lia.
    - eexists. change (rho_mul n c x (S m) (y, prod)) with (rho_mul_step n c x (rho_mul n c x m (y, prod))).
      rewrite E. split; [reflexivity|]. rewrite gcd_mod by lia. rewrite gcd_mul_1, G.
      split.
      + intros [[H1 H2] H3]. split; [exact H1|]. intros j Hj. destruct (Nat.eq_dec j (S m)) as [->|].
        * exact H3.
        * apply H2. lia.
      + intros [H1 H2]. split; [split; [exact H1|]|]. 
        * intros j Hj. apply H2. lia.
        * apply (H2 (S m)). lia.
  Qed.

  (** The loop over batches. *)
  Definition batch_post (x r : Z) (y0 : Z) (o : outcome (Z * Z * Z * Z)) : Prop :=
    exists y prod ys g, o = Ret (y, prod, ys, g) /\ (g | n) /\ 1 <= g /\
      ((1 < g /\ exists j, (1 <= j <= 100)%nat /\ 1 < Z.gcd (x - it j ys) n) \/
       (g = 1 /\ y = it (Z.to_nat r) y0 /\ Z.gcd prod n = 1 /\
         forall j, (1 <= j <= Z.to_nat r)%nat -> Z.gcd (x - it j y0) n = 1)).

  Lemma not_all_1 x ys m : ~ (forall j, (1 <= j <= m)%nat -> Z.gcd (x - it j ys) n = 1) ->
    exists j, (1 <= j <= m)%nat /\ 1 < Z.gcd (x - it j ys) n.
  Proof.
    induction m as [|m IH]; intros H.
    - exfalso. apply H. intros. lia.
    - destruct (Z.eq_dec (Z.gcd (x - it (S m) ys) n) 1) as [E|E].
      + destruct IH as (j & Hj & Hg).
        * intros G. apply H. intros j Hj. destruct (Nat.eq_dec j (S m)) as [->|]; [exact E|apply G; lia].
        * exists j. split; [lia|exact Hg].
      + exists (S m). split; [lia|]. pose proof (Z.gcd_nonneg (x - it (S m) ys) n).
        assert (Z.gcd (x - it (S m) ys) n <> 0); [|lia].
        intros G. apply Z.gcd_eq_0_r in G. lia.
  Qed.

  Lemma rho_batch_ok x r y0 prod0 : 1 <= r -> Z.gcd prod0 n = 1 ->
    batch_post x r y0 (run (rho_batch n c x r) (bits (r + 100)) (0, y0, prod0)).
  Proof.
    intros Hr G0.
    refine (run_rule _ (fun s => let '(k, y, prod) := s in
      0 <= k < r + 100 /\ y = it (Z.to_nat (Z.min k r)) y0 /\ Z.gcd prod n = 1 /\
      forall j, (1 <= j <= Z.to_nat (Z.min k r))%nat -> Z.gcd (x - it j y0) n = 1)
      (fun s => r + 99 - fst (fst s)) _ _ _ _ _ _); [| |cbn [fst]; pose proof (bits_spec (r + 100)); lia].
    - intros [[k y] prod] (Hk & Hy & G & A). unfold rho_batch.
      set (m := Z.to_nat (Z.min 100 (r - k))).
      destruct (rho_mul_spec x m y prod) as (prod' & E & G'). rewrite E.
      rewrite gcd_correct. pose proof (Z.gcd_nonneg prod' n) as Hg0.
      assert (Hg1 : Z.gcd prod' n <> 0) by (intros X; apply Z.gcd_eq_0_r in X; lia).
      destruct (Z.leb_spec r k) as [Hrk|Hrk]; cbn [orb].
      + assert (m = O) by (unfold m; lia). clearbody m. subst m. cbn [Nat.iter] in *.
        assert (Gp : Z.gcd prod' n = 1) by (apply G'; split; [exact G|intros; lia]).
        exists (it 0 y), prod', y, (Z.gcd prod' n). split; [reflexivity|].
        split; [apply Z.gcd_divide_r|]. split; [lia|]. right. split; [exact Gp|].
        replace (Z.min k r) with r in * by lia. split; [exact Hy|]. split; [exact Gp|exact A].
      + destruct (Z.ltb_spec 1 (Z.gcd prod' n)) as [Hg|Hg].
        * exists (it m y), prod', y, (Z.gcd prod' n). split; [reflexivity|].
          split; [apply Z.gcd_divide_r|]. split; [lia|]. left. split; [exact Hg|].
          destruct (not_all_1 x y m) as (j & Hj & Hj').
          { intros X. assert (Z.gcd prod' n = 1) by (apply G'; tauto). lia. }
          exists j. split; [unfold m in Hj; lia|exact Hj'].
        * assert (Gp : Z.gcd prod' n = 1) by lia. apply G' in Gp as Gp'. destruct Gp' as [_ Gp'].
          split; [|cbn [fst]; lia]. split; [lia|]. split; [|split; [exact Gp|]].
          -- rewrite Hy, <- it_add. f_equal. unfold m. lia.
          -- intros j Hj. destruct (le_lt_dec j (Z.to_nat (Z.min k r))) as [Hle|Hlt]; [apply A; lia|].
             replace j with ((j - Z.to_nat (Z.min k r)) + Z.to_nat (Z.min k r))%nat by lia.
             rewrite it_add, <- Hy. apply Gp'. unfold m. lia.
    - cbv beta iota zeta. split; [lia|]. replace (Z.min 0 r) with 0 by lia. split; [reflexivity|]. split; [exact G0|]. intros j Hj. lia.
  Qed.

  Lemma rho_outer_ok y0 :
    exists x ys g, run (rho_outer n c) (bits (bit_length n + 3)) (y0, 1, 1) = Ret (x, ys, g) /\
      (g | n) /\ 1 < g /\ exists j, (1 <= j <= 100)%nat /\ 1 < Z.gcd (x - it j ys) n.
  Proof.
    refine (run_rule _ (fun s => let '(y, prod, r) := s in
      1 <= r <= 2 * n /\ Z.gcd prod n = 1 /\ exists t, y = it t y0 /\ Z.of_nat t = 2 * (r - 1))
      (fun s => Z.log2 n + 2 - Z.log2 (snd s))
      (fun o => exists x ys g, o = Ret (x, ys, g) /\ (g | n) /\ 1 < g /\
         exists j, (1 <= j <= 100)%nat /\ 1 < Z.gcd (x - it j ys) n) _ _ _ _ _).
    - intros [[y prod] r] (Hr & G & t & Hy & Ht). unfold rho_outer.
      destruct (rho_batch_ok y r (rho_skip n c (Z.to_nat r) y) prod ltac:(lia) G)
        as (y' & prod' & ys & g & E & Dg & Hg & [[Hg1 J]|[Hg1 (Hy' & Gp & A)]]); rewrite E.
      + destruct (Z.ltb_spec 1 g); [|lia]. exists y, ys, g. auto.
      + destruct (Z.ltb_spec 1 g); [lia|]. cbn [snd].
        assert (Hrn : r < n).
        { destruct (Z_lt_le_dec r n) as [|Hle]; [assumption|exfalso].
          destruct (periodic y0 t) as (l & Hl & Hln & El); [lia|]. rewrite <- Hy in El.
          set (q := (Z.to_nat r / l)%nat).
          assert (Q : (Z.to_nat r < S q * l <= Z.to_nat r + l)%nat).
          { pose proof (Nat.div_mod (Z.to_nat r) l ltac:(lia)). pose proof (Nat.mod_upper_bound (Z.to_nat r) l ltac:(lia)).
            unfold q. lia. }
          assert (X : Z.gcd (y - it (S q * l - Z.to_nat r) (rho_skip n c (Z.to_nat r) y)) n = 1).
          { apply A. lia. }
          change (rho_skip n c (Z.to_nat r) y) with (it (Z.to_nat r) y) in X.
          rewrite <- it_add in X. replace (S q * l - Z.to_nat r + Z.to_nat r)%nat with (S q * l)%nat in X by lia.
          rewrite period_mul in X by exact El. rewrite Z.sub_diag, Z.gcd_0_l in X. lia. }
        split.
        * split; [lia|]. split; [exact Gp|]. exists (Z.to_nat r + (Z.to_nat r + t))%nat.
          split; [|lia]. rewrite Hy', !it_add, <- Hy. reflexivity.
        * pose proof (Z.log2_le_mono r n ltac:(lia)). replace (r * 2) with (2 * r) by lia.
          rewrite Z.log2_double by lia. lia.
    - split; [lia|]. split; [apply Z.gcd_1_l|]. exists O. split; [reflexivity|reflexivity].
    - cbn [snd]. change (Z.log2 1) with 0. pose proof (bits_spec (bit_length n + 3)).
      unfold bit_length in *. destruct (Z.eqb_spec n 0); [lia|]. rewrite Z.abs_eq in * by lia. lia.
  Qed.

  Lemma rho_final_ok x ys0 j : (1 <= j <= 100)%nat -> 1 < Z.gcd (x - it j ys0) n ->
    exists g, run (rho_final n c x) (bits 101) ys0 = Ret g /\ (g | n) /\ 1 < g.
  Proof.
    intros Hj Hg.
    refine (run_count _ (fun k y => exists i, (i < j)%nat /\ y = it i ys0 /\ k = Z.of_nat (j - i))
      (fun o => exists g, o = Ret g /\ (g | n) /\ 1 < g) _ _ (Z.of_nat j) _ _ _).
    - intros k y (i & Hi & Hy & Hk). unfold rho_final. rewrite gcd_correct.
      change (rho_next n c y) with (f y). rewrite Hy. change (f (it i ys0)) with (it (S i) ys0).
      destruct (Z.ltb_spec 1 (Z.gcd (x - it (S i) ys0) n)) as [H|H].
      + eexists. split; [reflexivity|]. split; [apply Z.gcd_divide_r|exact H].
      + exists (Z.of_nat (j - S i)). split; [lia|]. exists (S i).
        split; [|split; reflexivity]. destruct (Nat.eq_dec (S i) j) as [E|]; [rewrite E in H; lia|lia].
    - exists O. split; [lia|]. split; [reflexivity|]. f_equal. lia.
    - pose proof (bits_spec 101). lia.
  Qed.

  Theorem pollard_rho_brent_ok y :
    exists g, pollard_rho_brent c y n = Ret g /\ (g | n) /\ 1 < g.
  Proof.
    unfold pollard_rho_brent. destruct (Z.ltb_spec (n - 3) 1); [lia|].
    destruct (rho_outer_ok y) as (x & ys & g & E & Dg & Hg & j & Hj & Hj'). rewrite E. cbn [bind].
    destruct (g =? n); [|exists g; auto]. apply rho_final_ok with j; assumption.
  Qed.
End Rho.
