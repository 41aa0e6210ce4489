(** * Proofs about rosemary/number_theory/arithmetic_progressions.py *)
From Coq Require Import ZArith List Bool Lia Sorting.Sorted Sorting.Permutation.
From Verif Require Import Base Sums Prog_Spec Prog_Model.
Import ListNotations.
Open Scope Z_scope.

(** ** Three terms *)
Section Three.
  Context (A : list Z).
  Hypothesis Mono : forall i j, 0 <= i <= j -> j < zlen A -> rd A i <= rd A j.

  Definition none_at (j : Z) : Prop := forall i k, 0 <= i < j -> j < k < zlen A -> rd A i + rd A k <> 2 * rd A j.

  Lemma ap_step_get i j k : 0 <= i < j -> j < k < zlen A -> (do x <- pyget A i; do y <- pyget A k; do z <- pyget A j; Ret (x + y, 2 * z)) = Ret (rd A i + rd A k, 2 * rd A j).
  Proof using Type. intros. rewrite !rd_get by lia. reflexivity. Qed.

  Lemma three_inner j : 1 <= j < zlen A ->
    let r := run (ap_step A j) (bits (Z.of_nat (length A) + 1)) (j - 1, j + 1) in
    (r = Ret None /\ none_at j) \/ exists i k, r = Ret (Some (i, j, k)) /\ 0 <= i < j /\ j < k < zlen A /\ rd A i + rd A k = 2 * rd A j.
  Proof using Mono.
    intros Hj r. unfold r. apply run_rule with (I := fun '(i, k) => -1 <= i < j /\ j < k <= zlen A /\ forall i' k', 0 <= i' < j -> j < k' < zlen A -> i < i' \/ k' < k -> rd A i' + rd A k' <> 2 * rd A j)
      (m := fun '(i, k) => (i + 1) + (zlen A - k)) (Q := fun r => (r = Ret None /\ none_at j) \/ exists i k, r = Ret (Some (i, j, k)) /\ 0 <= i < j /\ j < k < zlen A /\ rd A i + rd A k = 2 * rd A j).
    - intros (i, k) (Hi & Hk & N). unfold ap_step. fold (zlen A). destruct (Z.leb_spec 0 i) as [Hi0|Hi0]; cbn [andb].
      + destruct (Z.ltb_spec k (zlen A)) as [Hkn|Hkn].
        * rewrite ap_step_get by lia. destruct (Z.ltb_spec (rd A i + rd A k) (2 * rd A j)) as [L|L].
          -- split; [|lia]. split; [lia|]. split; [lia|]. intros i' k' Hi' Hk' [C|C]; [apply N; auto|]. destruct (Z.le_gt_cases i' i) as [X|X]; [|apply N; auto].
             destruct (Z.eq_dec k' k) as [->|]; [|apply N; lia]. pose proof (Mono i' i ltac:(lia) ltac:(lia)). lia.
          -- destruct (Z.ltb_spec (2 * rd A j) (rd A i + rd A k)) as [L2|L2].
             ++ split; [|lia]. split; [lia|]. split; [lia|]. intros i' k' Hi' Hk' [C|C]; [|apply N; auto]. destruct (Z.le_gt_cases k k') as [X|X]; [|apply N; auto].
                destruct (Z.eq_dec i' i) as [->|]; [|apply N; lia]. pose proof (Mono k k' ltac:(lia) ltac:(lia)). lia.
             ++ right. exists i, k. split; [reflexivity|lia].
        * left. split; [reflexivity|]. intros i' k' Hi' Hk'. apply N; lia.
      + left. split; [reflexivity|]. intros i' k' Hi' Hk'. apply N; lia.
    - split; [lia|]. split; [lia|]. intros. lia.
    - eapply Z.le_lt_trans; [|apply bits_spec]. fold (zlen A). lia.
  Qed.

  Lemma three_scan b : 1 <= b ->
    let r := ap_scan A (zrange b (zlen A)) in
    (r = Ret None /\ forall j, b <= j < zlen A -> none_at j) \/ exists i j k, r = Ret (Some (i, j, k)) /\ 0 <= i < j /\ j < k < zlen A /\ rd A i + rd A k = 2 * rd A j.
  Proof using Mono.
    intros Hb. remember (Z.to_nat (zlen A - b)) as f eqn:Ef. revert b Hb Ef. induction f as [|f IH]; intros b Hb Ef.
    - rewrite zrange_nil by lia. left. split; [reflexivity|]. intros. lia.
    - rewrite zrange_cons by lia. cbn [ap_scan]. destruct (three_inner b ltac:(lia)) as [(E & N)|(i & k & E & H)].
      + rewrite E. cbn [bind]. destruct (IH (b + 1) ltac:(lia) ltac:(lia)) as [(E' & N')|(i & j & k & E' & H)].
        * left. split; [exact E'|]. intros j Hj. destruct (Z.eq_dec j b) as [->|]; [exact N|apply N'; lia].
        * right. exists i, j, k. auto.
      + rewrite E. cbn [bind]. right. exists i, b, k. auto.
  Qed.
End Three.

(** ** Pair dictionaries *)
Lemma pair_eqb_spec p q : reflect (p = q) (pair_eqb p q).
Proof.
  destruct p as [a b], q as [c d]. unfold pair_eqb. cbn [fst snd]. destruct (Z.eqb_spec a c), (Z.eqb_spec b d); constructor; congruence.
Qed.
Lemma pget_pset d k v k' : pget (pset d k v) k' = if pair_eqb k k' then Some v else pget d k'.
Proof.
  induction d as [|[a w] d IH]; cbn [pset pget]; [reflexivity|]. destruct (pair_eqb_spec a k) as [->|N]; cbn [pget].
  - destruct (pair_eqb k k'); reflexivity.
  - rewrite IH. destruct (pair_eqb_spec a k') as [->|]; [|reflexivity]. destruct (pair_eqb_spec k k'); congruence.
Qed.
Lemma pset_keys d k v k' : In k' (map fst (pset d k v)) <-> k' = k \/ In k' (map fst d).
Proof.
  induction d as [|[a w] d IH]; cbn [pset map fst In]; [intuition congruence|]. destruct (pair_eqb_spec a k) as [->|N]; cbn [map fst In]; [intuition congruence|]. rewrite IH. intuition congruence.
Qed.
Lemma pset_NoDup d k v : NoDup (map fst d) -> NoDup (map fst (pset d k v)).
Proof.
  induction d as [|[a w] d IH]; cbn [pset map fst]; intros N.
  - constructor; [intros []|constructor].
  - inversion_clear N as [|? ? N1 N2]. destruct (pair_eqb_spec a k) as [->|Na]; cbn [map fst]; [constructor; auto|]. constructor; [|apply IH, N2]. rewrite pset_keys. intuition congruence.
Qed.
Lemma pget_In d k v : NoDup (map fst d) -> In (k, v) d <-> pget d k = Some v.
Proof.
  induction d as [|[a w] d IH]; cbn [map fst pget In]; intros N; [split; [intros []|discriminate]|]. inversion_clear N as [|? ? N1 N2]. specialize (IH N2). destruct (pair_eqb_spec a k) as [->|Na].
  - split; [|intros [= ->]; auto]. intros [[= ->]|H]; [reflexivity|]. exfalso. apply N1. apply in_map_iff. exists (k, v). auto.
  - rewrite <- IH. split; [intros [[= -> ->]|H]; [congruence|exact H]|auto].
Qed.

Lemma progression_nth a d m k : 0 <= k < m -> rd (progression a d m) k = a + d * k.
Proof.
  intros H. unfold rd, progression. destruct (Z.ltb_spec k 0); [lia|]. rewrite (nth_indep _ 0 (a + d * 0)) by (rewrite map_length, zrange_length; lia). rewrite (map_nth (fun k => a + d * k)). f_equal. f_equal. rewrite zrange_nth by lia. lia.
Qed.
Lemma progression_In a d m x : In x (progression a d m) <-> exists k, 0 <= k < m /\ x = a + d * k.
Proof. unfold progression. rewrite in_map_iff. split; [intros (k & <- & H); apply zrange_In in H; eauto|intros (k & H & ->); exists k; rewrite zrange_In; auto]. Qed.
Lemma progression_length a d m : 0 <= m -> zlen (progression a d m) = m.
Proof. intros. unfold zlen, progression. rewrite map_length, zrange_length. lia. Qed.
Lemma progression_inj a d m a' d' : 2 <= m -> progression a d m = progression a' d' m -> a = a' /\ d = d'.
Proof.
  intros H E. pose proof (progression_nth a d m 0 ltac:(lia)) as X. pose proof (progression_nth a d m 1 ltac:(lia)) as Y. rewrite E in X, Y. rewrite progression_nth in X, Y by lia. lia.
Qed.

(** ** Longest progressions *)
Section Longest.
  Context (A : list Z).
  Hypothesis Strict : forall i j, 0 <= i < j -> j < zlen A -> rd A i < rd A j.
  Let n := zlen A.

  Lemma In_rd x : In x A <-> exists i, 0 <= i < n /\ rd A i = x.
  Proof using Type.
    split.
    - intros H. destruct (In_nth A x 0 H) as (k & Hk & E). exists (Z.of_nat k). unfold n, zlen. split; [lia|]. unfold rd. destruct (Z.ltb_spec (Z.of_nat k) 0); [lia|]. rewrite Nat2Z.id. exact E.
    - intros (i & Hi & <-). unfold rd. destruct (Z.ltb_spec i 0); [lia|]. apply nth_In. unfold n, zlen in Hi. lia.
  Qed.

  Lemma rd_lt i j : 0 <= i < n -> 0 <= j < n -> rd A i < rd A j -> i < j.
  Proof using Strict. intros Hi Hj H. destruct (Z.lt_trichotomy i j) as [|[->|X]]; [assumption|lia|]. pose proof (Strict j i ltac:(lia) ltac:(unfold n in *; lia)). lia. Qed.

  Lemma rd_inj i j : 0 <= i < n -> 0 <= j < n -> rd A i = rd A j -> i = j.
  Proof using Strict.
    intros Hi Hj H. destruct (Z.lt_trichotomy i j) as [X|[X|X]]; [|exact X|]; exfalso; [pose proof (Strict i j ltac:(lia) ltac:(unfold n in *; lia))|pose proof (Strict j i ltac:(lia) ltac:(unfold n in *; lia))]; lia.
  Qed.

  (** [m] is the number of terms in [A] of the progression starting with the entries [i] and [j]. *)
  Definition runs (i j m : Z) : Prop := 2 <= m /\ (forall t, 0 <= t < m -> In (rd A i + (rd A j - rd A i) * t) A) /\ ~ In (rd A i + (rd A j - rd A i) * m) A.

  Lemma runs_unique i j m m' : runs i j m -> runs i j m' -> m = m'.
  Proof using Type.
    intros (H & H1 & H2) (H' & H1' & H2'). destruct (Z.lt_trichotomy m m') as [X|[X|X]]; [|exact X|]; exfalso; [apply H2, H1'|apply H2', H1]; lia.
  Qed.

  Lemma runs_2 i j : 0 <= i < j -> j < n -> (forall k, j < k < n -> rd A i + rd A k <> 2 * rd A j) -> runs i j 2.
  Proof using Strict.
    intros Hi Hj N. split; [lia|]. split.
    - intros t Ht. assert (t = 0 \/ t = 1) as [->| ->] by lia; apply In_rd; [exists i|exists j]; (split; [lia|ring]).
    - intros H. apply In_rd in H as (k & Hk & E). pose proof (Strict i j Hi Hj). assert (j < k) by (apply rd_lt; lia). apply (N k); lia.
  Qed.

  Lemma runs_next i j k m : 0 <= i < j -> j < k < n -> rd A i + rd A k = 2 * rd A j -> runs j k m -> runs i j (m + 1).
  Proof using Type.
    intros Hi Hk E (H & H1 & H2). split; [lia|]. replace (rd A k - rd A j) with (rd A j - rd A i) in * by lia. split.
    - intros t Ht. destruct (Z.eq_dec t 0) as [->|Nt]; [apply In_rd; exists i; split; [lia|ring]|]. replace (rd A i + (rd A j - rd A i) * t) with (rd A j + (rd A j - rd A i) * (t - 1)) by ring. apply H1. lia.
    - replace (rd A i + (rd A j - rd A i) * (m + 1)) with (rd A j + (rd A j - rd A i) * m) by ring. exact H2.
  Qed.

  (** The table describes exactly the pairs of the region [P]. *)
  Definition table (P : Z -> Z -> Prop) (L : list ((Z * Z) * Z)) (longest : Z) : Prop :=
    NoDup (map fst L) /\ (forall i j v, pget L (i, j) = Some v -> P i j /\ runs i j v /\ v <= longest) /\
    (forall i j, P i j -> exists v, pget L (i, j) = Some v) /\ 2 <= longest /\ (longest = 2 \/ exists i j, pget L (i, j) = Some longest).

  Lemma table_ext P Q L l : (forall i j, P i j <-> Q i j) -> table P L l -> table Q L l.
  Proof using Type.
    intros E (T1 & T2 & T3 & T4). split; [exact T1|]. split; [|split; [|exact T4]].
    - intros i j v H. rewrite <- E. apply T2, H.
    - intros i j H. apply T3, E, H.
  Qed.

  Lemma table_set P L l i j v : table P L l -> ~ P i j -> runs i j v -> table (fun i' j' => P i' j' \/ i' = i /\ j' = j) (pset L (i, j) v) (Z.max l v).
  Proof using Type.
    intros (T1 & T2 & T3 & T4 & T5) N R. split; [apply pset_NoDup, T1|]. split; [|split; [|split; [lia|]]].
    - intros i' j' w. rewrite pget_pset. destruct (pair_eqb_spec (i, j) (i', j')) as [[= <- <-]|Ne].
      + intros [= <-]. split; [auto|]. split; [exact R|lia].
      + intros H. destruct (T2 i' j' w H) as (a & b & c). split; [auto|]. split; [exact b|lia].
    - intros i' j' H. rewrite pget_pset. destruct (pair_eqb_spec (i, j) (i', j')) as [_|Ne]; [eauto|]. apply T3. destruct H as [H|[-> ->]]; [exact H|congruence].
    - destruct (Z.le_gt_cases v l) as [X|X].
      + rewrite Z.max_l by lia. destruct T5 as [T5|(a & b & E)]; [auto|]. right. exists a, b. rewrite pget_pset. destruct (pair_eqb_spec (i, j) (a, b)) as [[= <- <-]|_]; [|exact E]. exfalso. apply N. exact (proj1 (T2 _ _ _ E)).
      + rewrite Z.max_r by lia. right. exists i, j. rewrite pget_pset. destruct (pair_eqb_spec (i, j) (i, j)); congruence.
  Qed.

  Lemma table_set2 P L l i j : table P L l -> ~ P i j -> runs i j 2 -> table (fun i' j' => P i' j' \/ i' = i /\ j' = j) (pset L (i, j) 2) l.
  Proof using Type.
    intros T N R. replace l with (Z.max l 2); [apply table_set; assumption|]. destruct T as (_ & _ & _ & T & _). lia.
  Qed.

  Definition above (b i j : Z) : Prop := b <= j <= n - 2 /\ 0 <= i < j.

  Lemma rest_ok j i P L l : 1 <= j <= n - 2 -> -1 <= i < j -> table P L l -> (forall i', i' <= i -> ~ P i' j) -> (forall i', 0 <= i' <= i -> runs i' j 2) ->
    table (fun i' j' => P i' j' \/ 0 <= i' <= i /\ j' = j) (fold_left (fun L i => pset L (i, j) 2) (rev (zrange 0 (i + 1))) L) l.
  Proof using Type.
    intros Hj Hi T NP R. remember (Z.to_nat (i + 1)) as f eqn:Ef. revert i P L Hi T NP R Ef. induction f as [|f IH]; intros i P L Hi T NP R Ef.
    - rewrite zrange_nil by lia. cbn. revert T. apply table_ext. intros. split; [auto|]. intros [H|H]; [exact H|lia].
    - rewrite zrange_snoc by lia. rewrite rev_app_distr. cbn [rev app fold_left].
      pose proof (table_set2 P L l i j T (NP i ltac:(lia)) (R i ltac:(lia))) as T'.
      specialize (IH (i - 1) _ _ ltac:(lia) T'). replace (i - 1 + 1) with i in IH by lia. eapply table_ext; [|apply IH].
      + intros a b. cbn beta. split; [intros [[H|H]|H]; auto; right; lia|]. intros [H|[H ->]]; [auto|]. destruct (Z.eq_dec a i) as [->|]; [auto|right; lia].
      + intros i' Hi' [H|H]; [|lia]. exact (NP i' ltac:(lia) H).
      + intros i' Hi'. apply R. lia.
      + lia.
  Qed.

  Lemma body_ok j L l : 1 <= j <= n - 2 -> table (above (j + 1)) L l -> exists L' l', la_body A (L, l) j = Ret (L', l') /\ table (above j) L' l'.
  Proof using Strict.
    intros Hj T. unfold la_body.
    pose (Q := fun r : outcome (Z * list ((Z * Z) * Z) * Z) => exists i L' l', r = Ret (i, L', l') /\ -1 <= i < j /\ table (fun i' j' => above (j + 1) i' j' \/ i < i' < j /\ j' = j) L' l' /\ (forall i', 0 <= i' <= i -> runs i' j 2)).
    assert (H : Q (run (la_step A j) (bits (Z.of_nat (length A) + 1)) (j - 1, j + 1, L, l))).
    { apply run_rule with (I := fun '(i, k, L, l) => -1 <= i < j /\ j < k <= n /\ table (fun i' j' => above (j + 1) i' j' \/ i < i' < j /\ j' = j) L l /\ (0 <= i -> forall k', j < k' < k -> rd A i + rd A k' < 2 * rd A j))
        (m := fun '(i, k, L, l) => (i + 1) + (n - k)).
      - clear L l T. intros (((i, k), L), l) (Hi & Hk & T & B). unfold la_step. fold (zlen A). fold n. destruct (Z.leb_spec 0 i) as [Hi0|Hi0]; cbn [andb].
        + specialize (B Hi0). destruct (Z.leb_spec k (n - 1)) as [Hkn|Hkn].
          * rewrite ap_step_get by (unfold n in *; lia). destruct (Z.ltb_spec (rd A i + rd A k) (2 * rd A j)) as [C|C].
            -- split; [|lia]. split; [lia|]. split; [lia|]. split; [exact T|]. intros _ k' Hk'. destruct (Z.eq_dec k' k) as [->|]; [exact C|apply B; lia].
            -- assert (Mon : forall k', k < k' < n -> rd A k < rd A k') by (intros k' Hk'; apply Strict; unfold n in *; lia).
               assert (Prev : 0 <= i - 1 -> rd A (i - 1) < rd A i) by (intros; apply Strict; unfold n in *; lia).
               assert (NP : ~ (above (j + 1) i j \/ i < i < j /\ j = j)) by (unfold above; lia).
               assert (PE : forall a b, (above (j + 1) a b \/ i < a < j /\ b = j) \/ a = i /\ b = j <-> above (j + 1) a b \/ i - 1 < a < j /\ b = j) by (intros a b; split; [intros [[X|X]|X]; auto; right; lia|intros [X|[X ->]]; [auto|]; destruct (Z.eq_dec a i) as [->|]; [auto|left; right; lia]]).
               destruct (Z.ltb_spec (2 * rd A j) (rd A i + rd A k)) as [C2|C2].
               ++ split; [|lia]. split; [lia|]. split; [lia|]. split.
                  ** eapply table_ext; [exact PE|]. apply table_set2; [exact T|exact NP|]. apply runs_2; [lia|lia|]. intros k' Hk'. destruct (Z.lt_trichotomy k' k) as [X|[->|X]]; [specialize (B k' ltac:(lia)); lia|lia|specialize (Mon k' ltac:(lia)); lia].
                  ** intros Hi1 k' Hk'. specialize (B k' ltac:(lia)). specialize (Prev Hi1). lia.
               ++ split; [|lia]. split; [lia|]. split; [lia|]. split.
                  ** eapply table_ext; [exact PE|]. apply table_set; [exact T|exact NP|]. apply runs_next with k; [lia|lia|lia|]. unfold pgetd. destruct (pget L (j, k)) as [v|] eqn:G.
                     { destruct T as (_ & T2 & _). apply T2, G. }
                     { destruct (Z.eq_dec k (n - 1)) as [->|Nk]; [apply runs_2; [lia|lia|intros; lia]|]. exfalso. destruct T as (_ & _ & T3 & _). destruct (T3 j k) as (v & E); [left; unfold above; lia|congruence]. }
                  ** intros Hi1 k' Hk'. specialize (Prev Hi1). destruct (Z.eq_dec k' k) as [->|]; [lia|]. specialize (B k' ltac:(lia)). lia.
          * exists i, L, l. split; [reflexivity|]. split; [lia|]. split; [exact T|]. intros i' Hi'. apply runs_2; [lia|lia|]. intros k' Hk'. specialize (B k' ltac:(lia)).
            destruct (Z.eq_dec i' i) as [->|]; [lia|]. pose proof (Strict i' i ltac:(lia) ltac:(unfold n in *; lia)). lia.
        + exists i, L, l. split; [reflexivity|]. split; [lia|]. split; [exact T|]. intros. lia.
      - split; [lia|]. split; [lia|]. split; [|intros; lia]. revert T. apply table_ext. intros. split; [auto|]. intros [X|X]; [exact X|lia].
      - eapply Z.le_lt_trans; [|apply bits_spec]. fold (zlen A). unfold n in *. lia. }
    destruct H as (i & L' & l' & -> & Hi & T' & R). cbn [bind]. eexists _, _. split; [reflexivity|].
    eapply table_ext; [|apply (rest_ok j i); [lia|lia|exact T'| |exact R]].
    - intros a b. cbn beta. unfold above. split; [intros [[X|X]|X]; lia|]. intros X. destruct (Z.eq_dec b j) as [->|]; [|left; left; lia]. destruct (Z.le_gt_cases a i); [right; lia|left; right; lia].
    - intros i' Hi' [X|X]; [unfold above in X; lia|lia].
  Qed.

  Lemma tables_ok : exists L l, foldM (la_body A) (rev (zrange 1 (n - 1))) ([], 2) = Ret (L, l) /\ table (above 1) L l.
  Proof using Strict.
    assert (T0 : forall b, n - 1 <= b -> table (above b) [] 2).
    { intros b Hb. split; [constructor|]. split; [cbn; discriminate|]. split; [unfold above; intros; lia|]. split; [lia|auto]. }
    destruct (Z.le_gt_cases 1 (n - 1)) as [H|H].
    - destruct (foldM_range_down (la_body A) (fun b '(L, l) => table (above b) L l) 1 (n - 1) ([], 2) H) as ((L & l) & E & T).
      + apply T0. lia.
      + intros j (L, l) Hj T. destruct (body_ok j L l ltac:(lia) T) as (L' & l' & E & T'). exists (L', l'). auto.
      + exists L, l. auto.
    - rewrite zrange_nil by lia. exists [], 2. split; [reflexivity|]. apply T0. lia.
  Qed.

  Lemma progs_ok l L : (forall i j v, In ((i, j), v) L -> 0 <= i < n /\ 0 <= j < n) -> forall acc,
    foldM (fun progs e => let '((i, j), v) := e in if v =? l then do y <- pyget A j; do x <- pyget A i; let diff := y - x in Ret (progs ++ [map (fun k => x + diff * k) (zrange 0 l)]) else Ret progs) L acc
    = Ret (acc ++ map (fun e => progression (rd A (fst (fst e))) (rd A (snd (fst e)) - rd A (fst (fst e))) l) (filter (fun e => snd e =? l) L)).
  Proof using Type.
    induction L as [|[[i j] v] L IH]; intros B acc; cbn [foldM filter map snd fst].
    - rewrite app_nil_r. reflexivity.
    - assert (B' : forall i j v, In ((i, j), v) L -> 0 <= i < n /\ 0 <= j < n) by (intros; eapply B; right; eassumption). destruct (B i j v ltac:(left; reflexivity)) as [Bi Bj].
      destruct (v =? l) eqn:E; cbn [map fst snd bind]; [|apply IH, B']. rewrite !rd_get by (unfold n in *; lia). cbn [bind]. rewrite IH by exact B'. rewrite <- app_assoc. reflexivity.
  Qed.

  (** The entries of the table are the progressions. *)
  Lemma runs_ap i j v : 0 <= i < j -> j < n -> runs i j v -> ap_in A v (progression (rd A i) (rd A j - rd A i) v).
  Proof using Strict.
    intros Hi Hj (H & H1 & _). split; [exact H|]. exists (rd A i), (rd A j - rd A i). pose proof (Strict i j Hi Hj). split; [lia|]. split; [reflexivity|]. intros x X. apply progression_In in X as (k & Hk & ->). apply H1, Hk.
  Qed.

  Lemma ap_entry m p : 3 <= m -> ap_in A m p -> exists i j, above 1 i j /\ p = progression (rd A i) (rd A j - rd A i) m.
  Proof using Strict.
    intros Hm (_ & a & d & Hd & -> & I). assert (Ia : forall k, 0 <= k < m -> In (a + d * k) A) by (intros k Hk; apply I, progression_In; eauto).
    destruct (proj1 (In_rd _) (Ia 0 ltac:(lia))) as (i & Hi & Ei). destruct (proj1 (In_rd _) (Ia 1 ltac:(lia))) as (j & Hj & Ej). destruct (proj1 (In_rd _) (Ia 2 ltac:(lia))) as (k & Hk & Ek).
    assert (i < j) by (apply rd_lt; lia). assert (j < k) by (apply rd_lt; lia). exists i, j. split; [unfold above; lia|]. f_equal; lia.
  Qed.

  Lemma runs_ge i j v m : runs i j v -> (forall t, 0 <= t < m -> In (rd A i + (rd A j - rd A i) * t) A) -> m <= v.
  Proof using Type. intros (H0 & _ & H2) H. destruct (Z.le_gt_cases m v) as [|X]; [assumption|]. exfalso. apply H2, H. lia. Qed.
End Longest.

(** ** Sorting tuples *)
Lemma tuple_leb_spec p q : tuple_leb p q = true <-> tuple_le p q.
Proof.
  revert q. induction p as [|x p IH]; intros [|y q]; cbn; try tauto; try (split; [discriminate|tauto]).
  rewrite orb_true_iff, andb_true_iff, Z.ltb_lt, Z.eqb_eq, IH. tauto.
Qed.
Lemma tuple_le_total p q : tuple_le p q \/ tuple_le q p.
Proof. revert q. induction p as [|x p IH]; intros [|y q]; cbn; auto. destruct (Z.lt_total x y) as [H|[->|H]]; auto. destruct (IH q); auto. Qed.
Lemma tuple_le_trans p q r : tuple_le p q -> tuple_le q r -> tuple_le p r.
Proof. revert q r. induction p as [|x p IH]; intros [|y q] [|z r]; cbn; try tauto. intros [H|[-> H]] [H'|[-> H']]; try (left; lia). right. split; [reflexivity|]. eapply IH; eassumption. Qed.
Lemma tuple_insert_perm x l : Permutation (tuple_insert x l) (x :: l).
Proof. induction l as [|y l IH]; cbn; [reflexivity|]. destruct (tuple_leb x y); [reflexivity|]. rewrite IH. apply perm_swap. Qed.
Lemma tuple_sort_perm l : Permutation (tuple_sort l) l.
Proof. induction l as [|x l IH]; cbn; [reflexivity|]. rewrite tuple_insert_perm. constructor. exact IH. Qed.
Lemma tuple_insert_sorted x l : StronglySorted tuple_le l -> StronglySorted tuple_le (tuple_insert x l).
Proof.
  induction 1 as [|y l S IH F]; cbn; [repeat constructor|]. destruct (tuple_leb x y) eqn:E.
  - apply tuple_leb_spec in E. constructor; [constructor; assumption|]. constructor; [exact E|]. eapply Forall_impl; [|exact F]. intros z. apply tuple_le_trans, E.
  - constructor; [exact IH|]. assert (tuple_le y x) by (destruct (tuple_le_total x y) as [H|H]; [apply tuple_leb_spec in H; congruence|exact H]).
    eapply Permutation_Forall; [symmetry; apply tuple_insert_perm|]. constructor; assumption.
Qed.
Lemma tuple_sort_sorted l : StronglySorted tuple_le (tuple_sort l).
Proof. induction l as [|x l IH]; cbn; [constructor|]. apply tuple_insert_sorted, IH. Qed.

(** ** The result of longest_ap *)
Lemma longest_ap_ok A : (forall i j, 0 <= i < j -> j < zlen A -> rd A i < rd A j) ->
  exists l, longest_ap A = Ret l /\ StronglySorted tuple_le l /\ NoDup l /\ (forall p, In p l -> longest_in A p) /\
    ((exists p, ap_in A 3 p) -> forall p, longest_in A p -> In p l).
Proof.
  intros St. unfold longest_ap. fold (zlen A). destruct (tables_ok A St) as (L & l & E & T1 & T2 & T3 & T4 & T5). rewrite E. cbn [bind].
  assert (B : forall i j v, In ((i, j), v) L -> 0 <= i < zlen A /\ 0 <= j < zlen A) by (intros i j v H; apply pget_In in H; [|exact T1]; apply T2 in H as (H & _); unfold above in H; lia).
  pose proof (progs_ok A l L B []) as PO. cbv zeta in PO. rewrite PO. clear PO. cbn [app bind]. eexists. split; [reflexivity|]. set (P := map _ _).
  (* every progression has at most l terms when one has three *)
  assert (Max : forall m p, ap_in A m p -> m <= l).
  { intros m p H. destruct (Z.le_gt_cases m 2) as [|X]; [lia|]. destruct (ap_entry A St m p ltac:(lia) H) as (i & j & Hij & Ep). destruct (T3 i j Hij) as (v & Ev). destruct (T2 i j v Ev) as (_ & R & Lv).
    apply Z.le_trans with v; [|exact Lv]. eapply runs_ge; [exact R|]. destruct H as (_ & a & d & _ & Ep' & I). intros t Ht. apply I. rewrite Ep. apply progression_In. eauto. }
  split; [apply tuple_sort_sorted|]. split; [|split].
  - eapply Permutation_NoDup; [symmetry; apply tuple_sort_perm|]. unfold P. clear P Max E B.
    assert (R : forall e, In e L -> above A 1 (fst (fst e)) (snd (fst e))) by (intros [[i j] v] H; apply pget_In in H; [|exact T1]; apply T2 in H as (H & _); exact H).
    clear T2 T3 T5. induction L as [|[[i j] v] L IH]; cbn [filter map]; [constructor|]. inversion_clear T1 as [|? ? N1 N2]. specialize (IH N2 (fun e H => R e (or_intror H))). cbn [snd].
    destruct (v =? l); [|exact IH]. cbn [map]. constructor; [|exact IH]. intros H. apply in_map_iff in H as ([[i' j'] v'] & Eq & Hin). cbn [fst snd] in Eq. apply filter_In in Hin as [Hin _].
    apply progression_inj in Eq; [|lia]. destruct Eq as [E1 E2]. pose proof (R _ (or_intror Hin)) as R1. pose proof (R _ (or_introl eq_refl)) as R2. unfold above in R1, R2. cbn [fst snd] in *.
    apply (rd_inj A St) in E1; [|lia|lia]. subst i'. assert (rd A j = rd A j') as E3 by lia. apply (rd_inj A St) in E3; [|lia|lia]. subst j'. apply N1. apply in_map_iff. exists (i, j, v'). auto.
  - intros p H. apply (Permutation_in _ (tuple_sort_perm _)) in H. unfold P in H. apply in_map_iff in H as ([[i j] v] & <- & H). apply filter_In in H as [H Ev]. cbn [fst snd] in *. apply Z.eqb_eq in Ev. subst v.
    apply pget_In in H; [|exact T1]. destruct (T2 _ _ _ H) as (Hij & R & _). exists l. split; [|exact Max]. unfold above in Hij. apply runs_ap; [exact St|lia|lia|exact R].
  - intros (p3 & H3) p (m & Hp & Hm). assert (H3m : 3 <= m) by (apply (Hm 3 p3 H3)). apply (Permutation_in _ (Permutation_sym (tuple_sort_perm _))). unfold P.
    pose proof (Max _ _ Hp) as Hml. assert (Hlm : l <= m). { destruct T5 as [->|(i & j & Ev)]; [lia|]. destruct (T2 i j l Ev) as (Hij & R & _). unfold above in Hij. apply (Hm l _ (runs_ap A St i j l ltac:(lia) ltac:(lia) R)). }
    assert (m = l) by lia. subst m. destruct (ap_entry A St l p H3m Hp) as (i & j & Hij & Ep). destruct (T3 i j Hij) as (v & Ev). destruct (T2 i j v Ev) as (_ & R & Lv).
    assert (l <= v). { eapply runs_ge; [exact R|]. destruct Hp as (_ & a & d & _ & Ep' & I). intros t Ht. apply I. rewrite Ep. apply progression_In. eauto. }
    assert (v = l) by lia. subst v. apply in_map_iff. exists (i, j, l). split; [symmetry; exact Ep|]. apply filter_In. split; [apply pget_In; assumption|apply Z.eqb_refl].
Qed.

(** Without three terms in progression the result is made of the pairs that do not end in the last element. *)
Lemma longest_ap_pairs A : (forall i j, 0 <= i < j -> j < zlen A -> rd A i < rd A j) -> (forall p, ~ ap_in A 3 p) ->
  exists l, longest_ap A = Ret l /\ forall p, In p l <-> exists i j, 0 <= i < j /\ j < zlen A - 1 /\ p = [rd A i; rd A j].
Proof.
  intros St No. unfold longest_ap. fold (zlen A). destruct (tables_ok A St) as (L & l & E & T1 & T2 & T3 & T4 & T5). rewrite E. cbn [bind].
  assert (B : forall i j v, In ((i, j), v) L -> 0 <= i < zlen A /\ 0 <= j < zlen A) by (intros i j v H; apply pget_In in H; [|exact T1]; apply T2 in H as (H & _); unfold above in H; lia).
  assert (V : forall i j v, pget L (i, j) = Some v -> v = 2).
  { intros i j v H. destruct (T2 i j v H) as (Hij & (R0 & R1 & R2) & _). unfold above in Hij. destruct (Z.eq_dec v 2) as [|X]; [assumption|exfalso]. pose proof (St i j ltac:(lia) ltac:(lia)).
    apply (No (progression (rd A i) (rd A j - rd A i) 3)). split; [lia|]. exists (rd A i), (rd A j - rd A i). split; [lia|]. split; [reflexivity|]. intros x Hx. apply progression_In in Hx as (k & Hk & ->). apply R1. lia. }
  assert (l = 2) as -> by (destruct T5 as [->|(i & j & Ev)]; [reflexivity|apply (V i j l Ev)]).
  pose proof (progs_ok A 2 L B []) as PO. cbv zeta in PO. rewrite PO. clear PO. cbn [app bind]. eexists. split; [reflexivity|]. set (P := map _ _).
  assert (Pr : forall a d, progression a d 2 = [a; a + d]) by (intros a d; unfold progression; change (zrange 0 2) with [0; 1]; cbn [map]; rewrite Z.mul_0_r, Z.mul_1_r, Z.add_0_r; reflexivity).
  intros p. split.
  - intros H. apply (Permutation_in _ (tuple_sort_perm _)) in H. unfold P in H. apply in_map_iff in H as ([[i j] v] & <- & H). apply filter_In in H as [H _]. cbn [fst snd] in *.
    apply pget_In in H; [|exact T1]. destruct (T2 _ _ _ H) as (Hij & _). unfold above in Hij. exists i, j. split; [lia|]. split; [lia|]. rewrite Pr. do 2 f_equal. lia.
  - intros (i & j & Hij & Hj & ->). apply (Permutation_in _ (Permutation_sym (tuple_sort_perm _))). unfold P. destruct (T3 i j) as (v & Ev); [unfold above; lia|]. pose proof (V _ _ _ Ev). subst v.
    apply in_map_iff. exists (i, j, 2). split; [cbn [fst snd]; rewrite Pr; do 2 f_equal; lia|]. apply filter_In. split; [apply pget_In; assumption|reflexivity].
Qed.
