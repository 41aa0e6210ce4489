(** * Smooth numbers, the continued fraction of sqrt(n), cfrac *)
From Coq Require Import ZArith List Bool Lia Znumtheory Zpow_facts.
From Verif Require Import Base Py Sums Core_Model Core_Proofs Core_Props NT NT_Cong Primality_Model Find_Model Find_Spec.
Import ListNotations.
Open Scope Z_scope.

(** ** smooth_factor *)
Lemma strip_ok p n : 2 <= p -> n <> 0 -> (p | n) -> exists m e, run (strip_p p) (bits (Z.abs n)) (n / p, 1) = Ret (m, e) /\ 1 <= e /\ n = p ^ e * m /\ ~ (p | m).
Proof.
  intros Hp Hn [c Hc].
  refine (run_rule _ (fun s => 1 <= snd s /\ n = p ^ snd s * fst s /\ fst s <> 0) (fun s => Z.abs (fst s)) (fun o => exists m e, o = Ret (m, e) /\ 1 <= e /\ n = p ^ e * m /\ ~ (p | m)) _ _ _ _ _).
  - intros [m e] (He & E & H0). cbn [fst snd] in *. unfold strip_p. destruct (Z.eqb_spec (m mod p) 0) as [D|D].
    + apply Z.mod_divide in D as [d ->]; [|lia]. rewrite Z.div_mul by lia. cbn [fst snd]. split; [|nia]. split; [lia|]. split; [|nia]. rewrite Z.pow_add_r, Z.pow_1_r by lia. rewrite E. ring.
    + exists m, e. split; [reflexivity|]. split; [exact He|]. split; [exact E|]. intros X. apply D, Z.mod_divide; [lia|exact X].
  - cbn [fst snd]. rewrite Hc, Z.div_mul by lia. split; [lia|]. split; [rewrite Z.pow_1_r; ring|nia].
  - cbn [fst]. rewrite Hc, Z.div_mul by lia. pose proof (bits_spec (Z.abs (c * p))). nia.
Qed.

Lemma pow_part_unique p a b e f : prime p -> ~ (p | a) -> ~ (p | b) -> 0 <= e -> 0 <= f -> p ^ e * a = p ^ f * b -> e = f /\ a = b.
Proof.
  intros Pp. pose proof (prime_ge2 p Pp) as P2. assert (W : forall a b e f, ~ (p | a) -> 0 <= e -> e < f -> p ^ e * a = p ^ f * b -> False).
  { clear - P2. intros a b e f Na He Hf E. replace f with (e + (f - e - 1) + 1) in E by lia. rewrite !Z.pow_add_r, Z.pow_1_r in E by lia. apply Na. exists (p ^ (f - e - 1) * b).
    apply (Z.mul_reg_l _ _ (p ^ e)); [apply Z.pow_nonzero; lia|]. rewrite E. ring. }
  intros Na Nb He Hf E. destruct (Z.lt_total e f) as [L|[L|L]]; [exfalso; apply (W a b e f); assumption| |exfalso; apply (W b a f e); auto].
  subst f. split; [reflexivity|]. apply (Z.mul_reg_l _ _ (p ^ e)); [apply Z.pow_nonzero; lia|exact E].
Qed.

Lemma base_value_coprime q ps : prime q -> ~ In q ps -> (forall p, In p ps -> prime p) -> forall es, length es = length ps -> (forall e, In e es -> 0 <= e) -> ~ (q | base_value ps es).
Proof.
  intros Pq. pose proof (prime_ge2 q Pq) as Q2. induction ps as [|p ps IH]; intros Nq Hps [|e es] Hl He D; try discriminate.
  - unfold base_value in D. cbn in D. apply Z.divide_1_r_nonneg in D; lia.
  - unfold base_value in D. cbn [combine map zprod fold_right] in D. apply prime_mult in D; [|exact Pq]. destruct D as [D|D].
    + apply prime_power_prime in D; [|apply He; left; reflexivity|exact Pq|apply Hps; left; reflexivity]. apply Nq. left. symmetry. exact D.
    + apply (IH ltac:(intros H; apply Nq; right; exact H) ltac:(intros r Hr; apply Hps; right; exact Hr) es); [cbn [length] in Hl; congruence|intros x Hx; apply He; right; exact Hx|exact D].
Qed.

Lemma base_value_zeros ps : base_value ps (repeat 0 (length ps)) = 1.
Proof. induction ps as [|p ps IH]; [reflexivity|]. unfold base_value in *. cbn [length repeat combine map zprod fold_right]. fold (zprod (map (fun '(p, e) => p ^ e) (combine ps (repeat 0 (length ps))))). rewrite IH. reflexivity. Qed.

Lemma base_value_cons p e ps es : base_value (p :: ps) (e :: es) = p ^ e * base_value ps es.
Proof. reflexivity. Qed.

Lemma smooth_loop_ok base : forall suf pre_b pre n, base = pre_b ++ suf -> length pre = length pre_b -> suf <> [] -> NoDup suf -> (forall p, In p suf -> prime p) -> n <> 0 ->
  (exists es, smooth_loop base (zrange (zlen pre_b) (zlen base)) n (pre ++ repeat 0 (length suf)) = Ret (pre ++ es) /\ exponent_vector suf es /\ base_value suf es = n) \/
  (smooth_loop base (zrange (zlen pre_b) (zlen base)) n (pre ++ repeat 0 (length suf)) = Raise ValueError /\ forall es, exponent_vector suf es -> base_value suf es <> n).
Proof.
  induction suf as [|p suf IH]; intros pre_b pre n Eb Lp Hne ND Hpr Hn; [congruence|]. clear Hne. inversion ND as [|? ? Np ND']; subst x l.
  assert (Pp : prime p) by (apply Hpr; left; reflexivity). pose proof (prime_ge2 p Pp) as P2.
  assert (Hz : zlen base = zlen pre_b + 1 + zlen suf) by (unfold zlen; rewrite Eb, app_length; cbn [length]; lia).
  rewrite zrange_cons by (unfold zlen in *; lia). cbn [smooth_loop].
  assert (G : pyget base (zlen pre_b) = Ret p). { rewrite rd_get by (unfold zlen in *; lia). f_equal. unfold rd. destruct (Z.ltb_spec (zlen pre_b) 0); [unfold zlen in *; lia|]. unfold zlen. rewrite Nat2Z.id, Eb. apply nth_middle. }
  rewrite G. cbn [bind]. unfold pymod. destruct (Z.eqb_spec p 0); [lia|]. cbn [bind].
  set (cont := fun n' e => if n' =? 1 then Ret (pre ++ e :: repeat 0 (length suf)) else smooth_loop base (zrange (zlen pre_b + 1) (zlen base)) n' (pre ++ e :: repeat 0 (length suf))).
  assert (K : exists n' e, 0 <= e /\ n = p ^ e * n' /\ ~ (p | n') /\
    (do '(n0, exponents) <- (if n mod p =? 0 then do '(n1, e) <- run (strip_p p) (bits (Z.abs n)) (n / p, 1); do exponents <- pyset (pre ++ repeat 0 (length (p :: suf))) (zlen pre_b) e; Ret (n1, exponents) else Ret (n, pre ++ repeat 0 (length (p :: suf))));
     if n0 =? 1 then Ret exponents else smooth_loop base (zrange (zlen pre_b + 1) (zlen base)) n0 exponents) = cont n' e).
  { destruct (Z.eqb_spec (n mod p) 0) as [D|D].
    - apply Z.mod_divide in D; [|lia]. destruct (strip_ok p n ltac:(lia) Hn D) as (m & e & -> & He & E & Nm). exists m, e. split; [lia|]. split; [exact E|]. split; [exact Nm|]. cbn [bind].
      assert (PS : pyset (pre ++ repeat 0 (length (p :: suf))) (zlen pre_b) e = Ret (pre ++ e :: repeat 0 (length suf))).
      { cbn [length repeat]. unfold zlen. rewrite <- Lp. rewrite pyset_upd by (rewrite app_length; cbn [length]; lia). f_equal. rewrite Nat2Z.id. clear. induction pre as [|x pre IH]; [reflexivity|]. cbn [length app upd]. f_equal. exact IH. }
      rewrite PS. reflexivity.
    - exists n, 0. split; [lia|]. split; [rewrite Z.pow_0_r; ring|]. split; [intros X; apply D, Z.mod_divide; [lia|exact X]|]. reflexivity. }
  destruct K as (n' & e & He & E & Nn & ->). unfold cont. clear cont. assert (Hn' : n' <> 0) by (intros ->; apply Hn; rewrite E; ring).
  destruct (Z.eqb_spec n' 1) as [->|N1].
  - left. exists (e :: repeat 0 (length suf)). split; [reflexivity|]. split; [split; [cbn [length]; rewrite repeat_length; reflexivity|intros x [<-|Hx]; [exact He|apply repeat_spec in Hx; lia]]|]. rewrite base_value_cons, base_value_zeros. lia.
  - assert (Hr : forall es, exponent_vector (p :: suf) es -> base_value (p :: suf) es = n -> exists es', es = e :: es' /\ exponent_vector suf es' /\ base_value suf es' = n').
    { intros [|f es] [L H] V; [discriminate|]. rewrite base_value_cons, E in V. assert (Hf : 0 <= f) by (apply H; left; reflexivity). assert (H' : forall x, In x es -> 0 <= x) by (intros x Hx; apply H; right; exact Hx). cbn [length] in L.
      destruct (pow_part_unique p (base_value suf es) n' f e Pp) as [-> V']; try assumption; [apply base_value_coprime; try assumption; [intros q Hq; apply Hpr; right; exact Hq|congruence]|]. exists es. split; [reflexivity|]. split; [split; [congruence|exact H']|exact V']. }
    destruct suf as [|q suf].
    + right. rewrite (zrange_nil (zlen pre_b + 1)) by (rewrite Hz; unfold zlen; cbn [length]; lia). split; [reflexivity|]. intros es He' V. destruct (Hr es He' V) as (es' & _ & [L _] & V'). destruct es'; [|discriminate]. apply N1. rewrite <- V'. reflexivity.
    + destruct (IH (pre_b ++ [p]) (pre ++ [e]) n') as [(es & Es & Ve & V)|(Es & V)]; try assumption; try discriminate.
      * rewrite <- app_assoc. exact Eb.
      * rewrite !app_length, Lp. reflexivity.
      * intros r Hr'. apply Hpr. right. exact Hr'.
      * left. exists (e :: es). replace (zlen (pre_b ++ [p])) with (zlen pre_b + 1) in Es by (unfold zlen; rewrite app_length; cbn [length]; lia). rewrite <- !app_assoc in Es. split; [exact Es|]. destruct Ve as [L H]. split; [split; [cbn [length] in *; congruence|intros x [<-|Hx]; [exact He|apply H, Hx]]|]. rewrite base_value_cons, V, E. reflexivity.
      * right. replace (zlen (pre_b ++ [p])) with (zlen pre_b + 1) in Es by (unfold zlen; rewrite app_length; cbn [length]; lia). rewrite <- !app_assoc in Es. split; [exact Es|]. intros es He' V'. destruct (Hr es He' V') as (es' & _ & He2 & V2). apply (V es' He2 V2).
Qed.

Lemma pow_m1 e : 0 <= e -> (-1) ^ e = 1 \/ (-1) ^ e = -1.
Proof. intros He. pattern e. apply natlike_ind; [left; reflexivity| |exact He]. intros k Hk [E|E]; rewrite Z.pow_succ_r, E by exact Hk; [right|left]; reflexivity. Qed.

Lemma base_value_pos ps : (forall p, In p ps -> prime p) -> forall es, (forall e, In e es -> 0 <= e) -> 0 < base_value ps es.
Proof.
  induction ps as [|p ps IH]; intros Hps [|e es] He; try (cbn; lia). rewrite base_value_cons. apply Z.mul_pos_pos.
  - apply Z.pow_pos_nonneg; [pose proof (prime_ge2 p ltac:(apply Hps; left; reflexivity)); lia|apply He; left; reflexivity].
  - apply IH; [intros q Hq; apply Hps; right; exact Hq|intros x Hx; apply He; right; exact Hx].
Qed.

Lemma smooth_factor_ok n base : factor_base base -> n <> 0 ->
  (exists es, smooth_factor n base = Ret es /\ exponent_vector base es /\ base_value base es = n) \/
  (smooth_factor n base = Raise ValueError /\ forall es, exponent_vector base es -> base_value base es <> n).
Proof.
  intros (ps & Hb & Hne & ND & Hpr) Hn. unfold smooth_factor. rewrite Nat2Z.id. fold (zlen base). cbv zeta. destruct Hb as [-> | ->].
  - destruct ps as [|p ps]; [congruence|]. change (pyget (p :: ps) 0) with (Ret p). cbn [bind]. pose proof (prime_ge2 p ltac:(apply Hpr; left; reflexivity)). destruct (Z.eqb_spec p (-1)); [lia|]. cbn [bind].
    exact (smooth_loop_ok (p :: ps) (p :: ps) [] [] n eq_refl eq_refl Hne ND Hpr Hn).
  - change (pyget (-1 :: ps) 0) with (Ret (-1)). cbn [bind Z.eqb Pos.eqb].
    assert (A : forall m c, c = 0 \/ c = 1 -> n = (-1) ^ c * m -> 0 < m ->
      (exists es, smooth_loop (-1 :: ps) (zrange 1 (zlen (-1 :: ps))) m (c :: repeat 0 (length ps)) = Ret es /\ exponent_vector (-1 :: ps) es /\ base_value (-1 :: ps) es = n) \/
      (smooth_loop (-1 :: ps) (zrange 1 (zlen (-1 :: ps))) m (c :: repeat 0 (length ps)) = Raise ValueError /\ forall es, exponent_vector (-1 :: ps) es -> base_value (-1 :: ps) es <> n)).
    { intros m c Hc E Hm. destruct (smooth_loop_ok (-1 :: ps) ps [-1] [c] m eq_refl eq_refl Hne ND Hpr ltac:(lia)) as [(es & Es & [L H] & V)|(Es & V)].
      - left. exists (c :: es). split; [exact Es|]. split; [split; [cbn [length]; congruence|intros x [<-|Hx]; [lia|apply H, Hx]]|]. rewrite base_value_cons, V. symmetry. exact E.
      - right. split; [exact Es|]. intros [|f es] [L H] V'; [discriminate|]. rewrite base_value_cons in V'. apply (V es); [split; [cbn [length] in L; congruence|intros x Hx; apply H; right; exact Hx]|].
        pose proof (base_value_pos ps Hpr es ltac:(intros x Hx; apply H; right; exact Hx)) as Bp. destruct (pow_m1 f ltac:(apply H; left; reflexivity)) as [X|X]; rewrite X in V'; destruct Hc as [-> | ->]; rewrite ?Z.pow_0_r, ?Z.pow_1_r in E; lia. }
    destruct (Z.ltb_spec n 0).
    + change (repeat 0 (length (-1 :: ps))) with (0 :: repeat 0 (length ps)).
      assert (PS : pyset (0 :: repeat 0 (length ps)) 0 1 = Ret (1 :: repeat 0 (length ps))). { rewrite pyset_upd by (cbn [length]; lia). reflexivity. }
      rewrite PS. cbn [bind]. apply A; [right; reflexivity|rewrite Z.pow_1_r; lia|lia].
    + cbn [bind]. change (repeat 0 (length (-1 :: ps))) with (0 :: repeat 0 (length ps)). apply A; [left; reflexivity|rewrite Z.pow_0_r; lia|lia].
Qed.
