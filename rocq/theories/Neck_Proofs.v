(** * Counting strings up to rotation *)
From Coq Require Import ZArith List Lia Bool Znumtheory FinFun.
From Verif Require Import Base Sums Count Lists Lists2 Arith_Spec PC_Proofs PC_Proofs8 Summ_Proofs Neck_Spec.
Import ListNotations.
Open Scope Z_scope.

(** ** Sums over gcds *)
Lemma gcd_sum m (h : Z -> Z) : 1 <= m -> Sum 0 m (fun i => h (Z.gcd i m)) = Sum 1 (m + 1) (fun d => if m mod d =? 0 then h d * totient (m / d) else 0).
Proof.
  intros Hm. transitivity (Sum 1 (m + 1) (fun i => h (Z.gcd i m))).
  { rewrite (Sum_first 0) by lia. rewrite (Sum_last 1 m) by lia. rewrite Z.gcd_0_l, Z.gcd_diag. cbn [Z.add]. lia. }
  transitivity (Sum 1 (m + 1) (fun k => Sum 1 (m + 1) (fun d => if Z.gcd k m =? d then h d else 0))).
  - apply Sum_ext. intros k Hk.
    assert (B : 1 <= Z.gcd k m <= m). { pose proof (Z.gcd_nonneg k m). assert (Z.gcd k m <> 0) by (intros X; apply Z.gcd_eq_0_l in X; lia). pose proof (Z.divide_pos_le (Z.gcd k m) m ltac:(lia) (Z.gcd_divide_r k m)). lia. }
    rewrite (Sum_pick 1 (m + 1) (Z.gcd k m)) by (try lia; intros i Hi N; destruct (Z.eqb_spec (Z.gcd k m) i); congruence). rewrite Z.eqb_refl. reflexivity.
  - rewrite Sum_swap. apply Sum_ext. intros d Hd. destruct (Z.eqb_spec (m mod d) 0) as [E|E].
    + rewrite totient_Sum, <- Sum_mul. apply Z.mod_divide in E; [|lia]. destruct E as [c Ec].
      transitivity (Sum 1 (m + 1) (fun k => if k mod d =? 0 then (if Z.gcd k m =? d then h d else 0) else 0)).
      * apply Sum_ext. intros k Hk. destruct (Z.eqb_spec (k mod d) 0) as [X|X]; [reflexivity|]. destruct (Z.eqb_spec (Z.gcd k m) d) as [Y|Y]; [|reflexivity]. exfalso. apply X. apply Z.mod_divide; [lia|]. rewrite <- Y. apply Z.gcd_divide_l.
      * rewrite (Sum_multiples d (fun k => if Z.gcd k m =? d then h d else 0) m) by lia. apply Sum_ext. intros k Hk. subst m. rewrite Z.div_mul by lia. rewrite (Z.mul_comm c d), Z.gcd_mul_mono_l_nonneg by lia.
        destruct (Z.eqb_spec (Z.gcd k c) 1) as [N|N]; destruct (Z.eqb_spec (d * Z.gcd k c) d) as [X|X]; [lia|exfalso; apply X; rewrite N; lia|exfalso; apply N; clear - X Hd; nia|lia].
    + apply Sum_zero. intros k Hk. destruct (Z.eqb_spec (Z.gcd k m) d) as [Y|Y]; [|reflexivity]. exfalso. apply E. apply Z.mod_divide; [lia|]. rewrite <- Y. apply Z.gcd_divide_r.
Qed.

Lemma nth_skipn (l : list Z) k i : nth i (skipn k l) 0 = nth (k + i) l 0.
Proof. revert l. induction k as [|k IH]; intros l; [reflexivity|]. destruct l as [|x l]; [destruct i; reflexivity|]. cbn [skipn Nat.add nth]. apply IH. Qed.
Lemma nth_firstn_lt (l : list Z) k i : (i < k)%nat -> nth i (firstn k l) 0 = nth i l 0.
Proof. revert l i. induction k as [|k IH]; intros l i H; [lia|]. destruct l as [|x l]; [reflexivity|]. destruct i as [|i]; [reflexivity|]. cbn [firstn nth]. apply IH. lia. Qed.

Lemma Sum_ones_0 k : 0 <= k -> Sum 0 k (fun _ => 1) = k.
Proof. intros H. pattern k. apply natlike_ind; [reflexivity| |exact H]. intros x Hx IH. unfold Z.succ. rewrite Sum_last by lia. lia. Qed.

(** ** All strings *)
Lemma number_colourings m k : 0 <= k -> number_of (colouring (Z.of_nat m) k) (k ^ Z.of_nat m).
Proof.
  intros Hk. induction m as [|m IH].
  - rewrite Z.pow_0_r. apply number_of_one with []. intros w. split; [intros (L & _); destruct w; [reflexivity|cbn [length] in L; lia]|intros ->; split; [reflexivity|constructor]].
  - replace (k ^ Z.of_nat (S m)) with (zsum (map (fun _ => k ^ Z.of_nat m) (zrange 0 k))).
    + eapply number_of_ext; [|apply (number_of_sum (zrange 0 k) (fun c w => exists w', w = c :: w' /\ colouring (Z.of_nat m) k w') (fun _ => k ^ Z.of_nat m))].
      * intros w. split.
        -- intros (c & Hc & w' & -> & L & F). apply zrange_In in Hc. split; [cbn [length]; lia|constructor; [lia|exact F]].
        -- intros (L & F). destruct w as [|c w]; [cbn [length] in L; lia|]. inversion_clear F as [|? ? Hc F']. exists c. split; [apply zrange_In; lia|]. exists w. split; [reflexivity|]. split; [cbn [length] in L; lia|exact F'].
      * apply zrange_NoDup.
      * intros c Hc. apply (number_of_bij (colouring (Z.of_nat m) k) _ (cons c) (@tl Z)); [| |exact IH].
        -- intros w H. split; [exists w; auto|reflexivity].
        -- intros w (w' & -> & H). split; [exact H|reflexivity].
      * intros c c' w _ _ (u & -> & _) (u' & E & _). congruence.
    + rewrite Nat2Z.inj_succ, Z.pow_succ_r by lia. change (zsum (map (fun _ => k ^ Z.of_nat m) (zrange 0 k))) with (Sum 0 k (fun _ => k ^ Z.of_nat m)). rewrite (Sum_ext 0 k _ (fun _ => k ^ Z.of_nat m * 1)) by (intros; lia). rewrite Sum_mul. rewrite Sum_ones_0 by lia. ring.
Qed.

(** ** Strings as periodic sequences *)
Section Words.
  Context (n : Z).
  Hypothesis Hn : 1 <= n.

  Definition at_ (w : list Z) (j : Z) : Z := nth (Z.to_nat (j mod n)) w 0.
  Definition rotz (i : Z) (w : list Z) : list Z := map (fun j => at_ w (j + i)) (zrange 0 n).
  Definition word (w : list Z) : Prop := Z.of_nat (length w) = n.

  Lemma rotz_word i w : word (rotz i w).
  Proof using Hn. unfold word, rotz. rewrite map_length, zrange_length. lia. Qed.
  Lemma nth_gen (f : Z -> Z) j : 0 <= j < n -> nth (Z.to_nat j) (map f (zrange 0 n)) 0 = f j.
  Proof using Hn. intros Hj. rewrite (nth_indep _ 0 (f 0)) by (rewrite map_length, zrange_length; lia). rewrite map_nth. f_equal. rewrite zrange_nth by lia. lia. Qed.
  Lemma at_gen f j : at_ (map f (zrange 0 n)) j = f (j mod n).
  Proof using Hn. unfold at_. pose proof (Z.mod_pos_bound j n ltac:(lia)). apply nth_gen. lia. Qed.
  Lemma at_mod w j : at_ w (j mod n) = at_ w j.
  Proof using Hn. unfold at_. rewrite Z.mod_mod by lia. reflexivity. Qed.
  Lemma at_rotz i w j : at_ (rotz i w) j = at_ w (j + i).
  Proof using Hn. unfold rotz. rewrite at_gen. rewrite <- at_mod. rewrite Z.add_mod_idemp_l by lia. apply at_mod. Qed.
  Lemma word_ext w w' : word w -> word w' -> (forall j, 0 <= j < n -> at_ w j = at_ w' j) -> w = w'.
  Proof using Hn.
    unfold word. intros H H' E. apply (nth_ext _ _ 0 0); [lia|]. intros i Hi. specialize (E (Z.of_nat i) ltac:(lia)). unfold at_ in E. rewrite Z.mod_small, Nat2Z.id in E by lia. exact E.
  Qed.
  Lemma rotz_rotz i j w : rotz i (rotz j w) = rotz (i + j) w.
  Proof using Hn. apply word_ext; try apply rotz_word. intros k Hk. rewrite !at_rotz. f_equal. lia. Qed.
  Lemma rotz_0 w : word w -> rotz 0 w = w.
  Proof using Hn. intros H. apply word_ext; [apply rotz_word|exact H|]. intros j Hj. rewrite at_rotz. f_equal. lia. Qed.
  Lemma rotz_mod i w : rotz (i mod n) w = rotz i w.
  Proof using Hn. apply word_ext; try apply rotz_word. intros j Hj. rewrite !at_rotz. rewrite <- (at_mod _ (j + i mod n)), <- (at_mod _ (j + i)). rewrite Z.add_mod_idemp_r by lia. reflexivity. Qed.

  Lemma rotation_rotz w w' : word w -> rotation w w' <-> exists i, 0 <= i < n /\ w' = rotz i w.
  Proof using Hn.
    intros H. unfold word in H. split.
    - intros (a & b & -> & ->). rewrite app_length in H. assert (E : b ++ a = rotz (Z.of_nat (length a)) (a ++ b)).
      { apply word_ext; [unfold word; rewrite app_length; lia|apply rotz_word|]. intros j Hj. rewrite at_rotz. unfold at_. rewrite (Z.mod_small j) by lia. destruct (Z.lt_ge_cases j (Z.of_nat (length b))) as [C|C].
        - rewrite Z.mod_small by lia. rewrite app_nth1 by lia. rewrite app_nth2 by lia. f_equal. lia.
        - replace ((j + Z.of_nat (length a)) mod n) with (j - Z.of_nat (length b)) by (apply Z.mod_unique with 1; lia). rewrite app_nth2 by lia. rewrite app_nth1 by lia. f_equal. lia. }
      exists (Z.of_nat (length a) mod n). split; [apply Z.mod_pos_bound; lia|]. rewrite rotz_mod. exact E.
    - intros (i & Hi & ->). exists (firstn (Z.to_nat i) w), (skipn (Z.to_nat i) w). split; [symmetry; apply firstn_skipn|].
      apply word_ext; [apply rotz_word|unfold word; rewrite app_length, firstn_length, skipn_length; lia|]. intros j Hj. rewrite at_rotz. unfold at_. rewrite (Z.mod_small j) by lia.
      destruct (Z.lt_ge_cases j (n - i)) as [C|C].
      + rewrite Z.mod_small by lia. rewrite app_nth1 by (rewrite skipn_length; lia). rewrite nth_skipn. f_equal. lia.
      + replace ((j + i) mod n) with (j + i - n) by (apply Z.mod_unique with 1; lia). rewrite app_nth2 by (rewrite skipn_length; lia). rewrite skipn_length. rewrite nth_firstn_lt by lia. f_equal. lia.
  Qed.

  (** ** Strings fixed by a rotation *)
  Lemma period_mul w i t : (forall j, at_ w (j + i) = at_ w j) -> forall j, at_ w (j + t * i) = at_ w j.
  Proof using Hn.
    intros H. assert (P : forall t, 0 <= t -> forall j, at_ w (j + t * i) = at_ w j).
    { intros u Hu. pattern u. apply natlike_ind; [intros j; f_equal; lia| |exact Hu]. intros x Hx IH j. unfold Z.succ. replace (j + (x + 1) * i) with (j + x * i + i) by ring. rewrite H. apply IH. }
    intros j. destruct (Z.le_ge_cases 0 t) as [C|C]; [apply P, C|]. rewrite <- (P (- t) ltac:(lia) (j + t * i)). f_equal. ring.
  Qed.
  Lemma period_gcd w i : (forall j, at_ w (j + i) = at_ w j) -> forall j, at_ w (j + Z.gcd i n) = at_ w j.
  Proof using Hn.
    intros H j. destruct (Z.gcd_bezout i n (Z.gcd i n) eq_refl) as (a & b & E). rewrite <- E. replace (j + (a * i + b * n)) with (j + a * i + b * n) by ring.
    rewrite <- at_mod, Z.mod_add, at_mod by lia. apply period_mul, H.
  Qed.
  Lemma period_reduce w g : 1 <= g -> (g | n) -> (forall j, at_ w (j + g) = at_ w j) -> forall j, at_ w j = at_ w (j mod g).
  Proof using Hn.
    intros Hg D H j. rewrite (Z.div_mod j g) at 1 by lia. rewrite Z.add_comm, Z.mul_comm. apply period_mul, H.
  Qed.

  (** A rotation by [i] fixes as many strings as there are strings of length [gcd i n]. *)
  Lemma number_fixed k i : 0 <= k -> 0 <= i -> number_of (fun w => colouring n k w /\ rotz i w = w) (k ^ Z.gcd i n).
  Proof using Hn.
    intros Hk Hi. remember (Z.gcd i n) as g eqn:Eg. assert (Hg : 1 <= g). { rewrite Eg. pose proof (Z.gcd_nonneg i n). assert (Z.gcd i n <> 0) by (intros X; apply Z.gcd_eq_0_r in X; lia). lia. }
    assert (Dn : (g | n)) by (rewrite Eg; apply Z.gcd_divide_r). assert (Di : (g | i)) by (rewrite Eg; apply Z.gcd_divide_l). assert (Hgn : g <= n) by (apply Z.divide_pos_le; [lia|exact Dn]).
    assert (Mn : forall j, (j mod n) mod g = j mod g). { intros j. destruct Dn as [c Ec]. rewrite (Z.div_mod j n) at 2 by lia. rewrite Ec at 2. replace (c * g * (j / n) + j mod n) with (j mod n + (c * (j / n)) * g) by ring. rewrite Z.mod_add by lia. reflexivity. }
    set (f := fun u : list Z => map (fun j => nth (Z.to_nat (j mod g)) u 0) (zrange 0 n)).
    set (bk := fun w : list Z => firstn (Z.to_nat g) w).
    assert (Af : forall u j, at_ (f u) j = nth (Z.to_nat (j mod g)) u 0) by (intros u j; unfold f; rewrite at_gen by exact Hn; rewrite Mn; reflexivity).
    apply (number_of_bij (colouring g k) _ f bk); [| |replace g with (Z.of_nat (Z.to_nat g)) by lia; apply number_colourings, Hk].
    - intros u (Lu & Fu). assert (Wf : word (f u)) by (unfold word, f; rewrite map_length, zrange_length; lia). split; [split|].
      + split; [exact Wf|]. apply Forall_forall. intros c Hc. apply in_map_iff in Hc as (j & <- & _). rewrite Forall_forall in Fu. apply Fu, nth_In. pose proof (Z.mod_pos_bound j g ltac:(lia)). lia.
      + apply word_ext; [apply rotz_word|exact Wf|]. intros j Hj. rewrite at_rotz. rewrite !Af. destruct Di as [c Ec]. rewrite Ec, Z.mod_add by lia. reflexivity.
      + unfold bk. apply (nth_ext _ _ 0 0); [rewrite firstn_length; unfold word in Wf; lia|]. intros x Hx. rewrite firstn_length in Hx. rewrite nth_firstn_lt by lia. pose proof (Af u (Z.of_nat x)) as A. unfold at_ in A. rewrite (Z.mod_small _ n), (Z.mod_small _ g), !Nat2Z.id in A by lia. exact A.
    - intros w ((Lw & Fw) & Rw). split; [split|].
      + unfold bk. rewrite firstn_length. lia.
      + rewrite Forall_forall in *. intros c Hc. apply Fw. rewrite <- (firstn_skipn (Z.to_nat g) w). apply in_or_app. left. exact Hc.
      + apply word_ext; [unfold word, f; rewrite map_length, zrange_length; lia|exact Lw|]. intros j Hj. rewrite Af. unfold bk. pose proof (Z.mod_pos_bound j g ltac:(lia)). rewrite nth_firstn_lt by lia.
        assert (Per : forall j, at_ w (j + i) = at_ w j) by (intros x; rewrite <- (at_rotz i w x), Rw; reflexivity).
        rewrite (period_reduce w g Hg Dn ltac:(rewrite Eg; exact (period_gcd w i Per)) j). unfold at_. rewrite (Z.mod_small (j mod g) n) by lia. reflexivity.
  Qed.

  (** ** Counting the classes *)
  Definition weq (u v : list Z) : bool := if list_eq_dec Z.eq_dec u v then true else false.
  Definition stab (w : list Z) : Z := Z.of_nat (length (filter (fun i => weq (rotz i w) w) (zrange 0 n))).
  Lemma weq_spec u v : weq u v = true <-> u = v.
  Proof using Type. unfold weq. destruct (list_eq_dec Z.eq_dec u v); split; congruence. Qed.
  Lemma number_stab w : number_of (fun i => 0 <= i < n /\ rotz i w = w) (stab w).
  Proof using Type.
    exists (filter (fun i => weq (rotz i w) w) (zrange 0 n)). split; [apply NoDup_filter, zrange_NoDup|]. split; [|reflexivity]. intros i. rewrite filter_In, zrange_In, weq_spec. reflexivity.
  Qed.

  Lemma rotz_colouring k i w : colouring n k w -> colouring n k (rotz i w).
  Proof using Hn.
    intros (L & F). split; [apply rotz_word|]. apply Forall_forall. intros c Hc. apply in_map_iff in Hc as (j & <- & _). rewrite Forall_forall in F. apply F, nth_In. pose proof (Z.mod_pos_bound (j + i) n ltac:(lia)). lia.
  Qed.

  Theorem burnside k L : 0 <= k -> one_of_each n k L -> Sum 0 n (fun i => k ^ Z.gcd i n) = n * Z.of_nat (length L).
  Proof using Hn.
    intros Hk (NL & CL & EL & UL). destruct (number_colourings (Z.to_nat n) k Hk) as (W & NW & IW & _). rewrite Z2Nat.id in IW by lia.
    transitivity (zsum (map stab W)).
    - (* pairs (i, w) with rotz i w = w *)
      apply (number_of_unique (fun iw : Z * list Z => 0 <= fst iw < n /\ colouring n k (snd iw) /\ rotz (fst iw) (snd iw) = snd iw)).
      + eapply number_of_ext; [|apply (number_of_sum (zrange 0 n) (fun i iw => fst iw = i /\ colouring n k (snd iw) /\ rotz i (snd iw) = snd iw) (fun i => k ^ Z.gcd i n))].
        * intros [i w]. cbn [fst snd]. split; [intros (i' & Hi & -> & H); apply zrange_In in Hi; auto|]. intros (Hi & H). exists i. split; [apply zrange_In; lia|auto].
        * apply zrange_NoDup.
        * intros i Hi. apply zrange_In in Hi. apply (number_of_bij (fun w => colouring n k w /\ rotz i w = w) _ (fun w => (i, w)) snd); [intros w H; cbn; auto| |apply number_fixed; lia]. intros [i' w] (<- & H). cbn in *. auto.
        * intros i j x _ _ (<- & _) (<- & _). reflexivity.
      + eapply number_of_ext; [|apply (number_of_sum W (fun w iw => snd iw = w /\ 0 <= fst iw < n /\ rotz (fst iw) w = w) stab NW)].
        * intros [i w]. cbn [fst snd]. split; [intros (w' & Hw & -> & Hi & R); apply IW in Hw; auto|]. intros (Hi & C & R). exists w. split; [apply IW, C|auto].
        * intros w Hw. apply (number_of_bij (fun i => 0 <= i < n /\ rotz i w = w) _ (fun i => (i, w)) fst); [intros i H; cbn; auto| |apply number_stab]. intros [i w'] (<- & H). cbn in *. auto.
        * intros i j x _ _ (<- & _) (<- & _). reflexivity.
    - (* triples (w, (j, r)) with r in L and rotz j r = w *)
      apply (number_of_unique (fun t : list Z * (Z * list Z) => 0 <= fst (snd t) < n /\ In (snd (snd t)) L /\ fst t = rotz (fst (snd t)) (snd (snd t)))).
      + eapply number_of_ext; [|apply (number_of_sum W (fun w t => fst t = w /\ 0 <= fst (snd t) < n /\ In (snd (snd t)) L /\ w = rotz (fst (snd t)) (snd (snd t))) stab NW)].
        * intros [w [j r]]. cbn [fst snd]. split; [intros (w' & Hw & -> & H); exact H|]. intros (Hj & Hr & ->). exists (rotz j r). split; [apply IW, rotz_colouring, CL, Hr|auto].
        * intros w Hw. apply IW in Hw. destruct (EL w Hw) as (r & Hr & R). apply rotation_rotz in R as (a & Ha & ->); [|apply (CL r Hr)].
          apply (number_of_bij (fun i => 0 <= i < n /\ rotz i (rotz a r) = rotz a r) _ (fun i => (rotz a r, ((i + a) mod n, r))) (fun t => (fst (snd t) - a) mod n)); [| |apply number_stab].
          -- intros i (Hi & R). cbn [fst snd]. split; [split; [reflexivity|]; split; [apply Z.mod_pos_bound; lia|]; split; [exact Hr|]|].
             ++ rewrite rotz_mod. rewrite <- R at 1. rewrite rotz_rotz. reflexivity.
             ++ rewrite Zminus_mod_idemp_l. replace (i + a - a) with i by lia. apply Z.mod_small. lia.
          -- intros [w' [j r']]. cbn [fst snd]. intros (-> & Hj & Hr' & R).
             assert (r' = r). { apply UL; [exact Hr'|exact Hr|]. apply rotation_rotz; [apply (CL r' Hr')|]. exists ((j - a) mod n). split; [apply Z.mod_pos_bound; lia|]. rewrite rotz_mod. replace (j - a) with (- a + j) by lia. rewrite <- rotz_rotz. rewrite <- R. rewrite rotz_rotz. replace (- a + a) with 0 by lia. symmetry. apply rotz_0; apply (CL r Hr). }
             subst r'. split; [split; [apply Z.mod_pos_bound; lia|]|].
             ++ rewrite rotz_mod. rewrite rotz_rotz. replace (j - a + a) with j by lia. symmetry. exact R.
             ++ rewrite Zplus_mod_idemp_l. replace (j - a + a) with j by lia. rewrite Z.mod_small by lia. reflexivity.
        * intros i j x _ _ (<- & _) (<- & _). reflexivity.
      + replace (n * Z.of_nat (length L)) with (zsum (map (fun _ => n) L)).
        * eapply number_of_ext; [|apply (number_of_sum L (fun r t => snd (snd t) = r /\ 0 <= fst (snd t) < n /\ fst t = rotz (fst (snd t)) r) (fun _ => n) NL)].
          -- intros [w [j r]]. cbn [fst snd]. split; [intros (r' & Hr & -> & Hj & E); auto|]. intros (Hj & Hr & E). exists r. auto.
          -- intros r Hr. apply (number_of_bij (fun j => In j (zrange 0 n)) _ (fun j => (rotz j r, (j, r))) (fun t => fst (snd t))).
             ++ intros j Hj. apply zrange_In in Hj. cbn. auto.
             ++ intros [w [j r']] (E & Hj & E'). cbn [fst snd] in *. subst. split; [apply zrange_In; lia|reflexivity].
             ++ exists (zrange 0 n). split; [apply zrange_NoDup|]. split; [reflexivity|rewrite zrange_length; lia].
          -- intros i j x _ _ (<- & _) (<- & _). reflexivity.
        * clear. induction L as [|x L IH]; [cbn; lia|]. cbn [map length]. rewrite zsum_cons, IH. lia.
  Qed.

  (** There is such a choice. *)
  Lemma choice_exists k : 0 <= k -> exists L, one_of_each n k L.
  Proof using Hn.
    intros Hk. destruct (number_colourings (Z.to_nat n) k Hk) as (W & NW & IW & _). rewrite Z2Nat.id in IW by lia.
    assert (Sy : forall u v, word u -> rotation u v -> rotation v u). { intros u v _ (a & b & -> & ->). exists b, a. auto. }
    assert (G : forall V, (forall w, In w V -> colouring n k w) -> exists L, NoDup L /\ (forall r, In r L -> In r V) /\ (forall w, In w V -> exists r, In r L /\ rotation r w) /\ (forall r r', In r L -> In r' L -> rotation r r' -> r = r')).
    { induction V as [|w V IH]; intros C; [exists []; split; [constructor|]; split; [intros r []|]; split; [intros w []|intros r r' []]|].
      destruct (IH (fun w H => C w (or_intror H))) as (L & N1 & I1 & E1 & U1).
      set (test := fun r => existsb (fun i => weq w (rotz i r)) (zrange 0 n)).
      assert (T : forall r, In r L -> test r = true <-> rotation r w). { intros r Hr. unfold test. rewrite existsb_exists. rewrite rotation_rotz by (apply (C r); right; apply I1, Hr). split; [intros (i & Hi & E); apply zrange_In in Hi; apply weq_spec in E; exists i; auto|intros (i & Hi & E); exists i; split; [apply zrange_In; lia|apply weq_spec, E]]. }
      destruct (existsb test L) eqn:B.
      - apply existsb_exists in B as (r & Hr & B). apply T in B; [|exact Hr]. exists L. split; [exact N1|]. split; [intros x Hx; right; apply I1, Hx|]. split; [|exact U1]. intros x [<-|Hx]; [exists r; auto|apply E1, Hx].
      - assert (B' : forall r, In r L -> ~ rotation r w). { intros r Hr X. apply T in X; [|exact Hr]. assert (existsb test L = true) by (apply existsb_exists; exists r; auto). congruence. }
        assert (Self : rotation w w) by (exists [], w; split; [reflexivity|rewrite app_nil_r; reflexivity]).
        exists (w :: L). split; [constructor; [intros X; exact (B' w X Self)|exact N1]|]. split; [intros x [<-|Hx]; [left; reflexivity|right; apply I1, Hx]|]. split.
        + intros x [<-|Hx]; [exists w; split; [left; reflexivity|exact Self]|]. destruct (E1 x Hx) as (r & Hr & R). exists r. split; [right; exact Hr|exact R].
        + intros r r' [<-|Hr] [<-|Hr'] R; [reflexivity|exfalso; apply (B' r' Hr'); apply Sy with (u := w); [apply (C w); left; reflexivity|exact R]|exfalso; exact (B' r Hr R)|apply U1; assumption]. }
    destruct (G W) as (L & N1 & I1 & E1 & U1); [intros w Hw; apply IW, Hw|]. exists L. split; [exact N1|]. split; [intros r Hr; apply IW, I1, Hr|]. split; [intros w Hw; apply E1, IW, Hw|exact U1].
  Qed.
End Words.
