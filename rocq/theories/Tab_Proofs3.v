(** * The sieve for the Moebius function *)
From Coq Require Import ZArith List Bool Lia Znumtheory Sorted.
From Verif Require Import Base Py Lists NT Sums PyFloat_Model PyFloat_Proofs Core_Model Core_Spec Core_Props Sieves_Model Primes_Spec Primality_Spec Primes_Props Factor_Spec Div_Proofs Arith_Spec Arith_Proofs Sqrt_Proofs2 Tab_Model Tab_Proofs.
Import ListNotations.
Open Scope Z_scope.

Definition sq (p N : Z) : bool := N mod (p * p) =? 0.
Definition dv (p N : Z) : bool := N mod p =? 0.
(** What the sieve accumulates for N. *)
Definition mx (ps : list Z) (N : Z) : Z := zprod (map (fun p => if dv p N then (if sq p N then 0 else -1) else 1) ps).
Definition vx (ps : list Z) (N : Z) : Z := zprod (map (fun p => if dv p N then (if sq p N then 1 else p) else 1) ps).
Definition final (N x v : Z) : Z := if negb (x =? 0) && (v <? N) then x * -1 else x.

Lemma zprod_filter (p : Z -> bool) (g : Z -> Z) l : zprod (map (fun x => if p x then g x else 1) l) = zprod (map g (filter p l)).
Proof. induction l as [|x l IH]; [reflexivity|]. cbn [filter map]. rewrite zprod_cons, IH. destruct (p x); [cbn [map]; rewrite zprod_cons; reflexivity|lia]. Qed.
Lemma zprod_split (p : Z -> bool) l : zprod l = zprod (filter p l) * zprod (filter (fun x => negb (p x)) l).
Proof. induction l as [|x l IH]; [reflexivity|]. cbn [filter]. rewrite zprod_cons, IH. destruct (p x); cbn [negb]; rewrite zprod_cons; ring. Qed.
Lemma length_split {A} (p : A -> bool) l : length l = (length (filter p l) + length (filter (fun x => negb (p x)) l))%nat.
Proof. induction l as [|x l IH]; [reflexivity|]. cbn [filter length]. destruct (p x); cbn [negb length]; lia. Qed.
Lemma sorted_filter (p : Z -> bool) l : StronglySorted Z.lt l -> StronglySorted Z.lt (filter p l).
Proof.
  induction 1 as [|x l S IH H]; [constructor|]. cbn [filter]. destruct (p x); [|exact IH]. constructor; [exact IH|]. apply Forall_forall. intros y Hy. apply filter_In in Hy as (Hy & _). rewrite Forall_forall in H. auto.
Qed.
Lemma zprod_neg1 {A} (l : list A) : zprod (map (fun _ => -1) l) = (-1) ^ Z.of_nat (length l).
Proof. induction l as [|x l IH]; [reflexivity|]. cbn [map length]. rewrite zprod_cons, IH, Nat2Z.inj_succ, Z.pow_succ_r by lia. reflexivity. Qed.
Lemma zprod_ge1 l : (forall x, In x l -> 1 <= x) -> 1 <= zprod l.
Proof. induction l as [|x l IH]; intros H; [reflexivity|]. rewrite zprod_cons. pose proof (H x (or_introl eq_refl)). assert (1 <= zprod l) by (apply IH; intros y Hy; apply H; right; exact Hy). nia. Qed.

Lemma mod_div p N : 0 < p -> (N mod p =? 0) = true <-> (p | N).
Proof. intros Hp. rewrite Z.eqb_eq. split; [intros E; apply Z.mod_divide; lia|intros D; apply Z.mod_divide; [lia|exact D]]. Qed.

Lemma final_moebius s ps N : 1 <= N < (s + 1) * (s + 1) -> 0 <= s -> primes_upto s ps -> is_moebius N (final N (mx ps N) (vx ps N)).
Proof.
  intros HN Hs (Sp & Pr). destruct (fac_exists N ltac:(lia)) as (l & F). destruct (existsb (fun p => sq p N) ps) eqn:Sq.
  - apply existsb_exists in Sq as (p & Hp & Ep). apply Pr in Hp as (Pp & Lp). pose proof (prime_ge2 p Pp). assert (D : (p * p | N)) by (apply mod_div; [nia|exact Ep]).
    assert (M0 : mx ps N = 0).
    { unfold mx. assert (In p ps) by (apply Pr; auto). apply in_split in H0 as (l1 & l2 & ->). rewrite map_app, zprod_app. cbn [map]. rewrite zprod_cons. rewrite Ep. assert (dv p N = true) as -> by (apply mod_div; [lia|]; apply Z.divide_trans with (p * p); [exists p; ring|exact D]). ring. }
    unfold final. rewrite M0. cbn. left. exists p. auto.
  - assert (NS : forall p, prime p -> ~ (p * p | N)).
    { intros p Hp D. pose proof (prime_ge2 p Hp). assert (Lp : p <= s) by (apply Z.divide_pos_le in D; [nia|lia]). assert (X : existsb (fun p => sq p N) ps = true) by (apply existsb_exists; exists p; split; [apply Pr; auto|apply mod_div; [nia|exact D]]). congruence. }
    assert (Nsq : forall p, In p ps -> sq p N = false).
    { intros p Hp. destruct (sq p N) eqn:E; [|reflexivity]. exfalso. apply Pr in Hp as (Hp & _). pose proof (prime_ge2 p Hp). apply (NS p Hp). apply mod_div in E; [exact E|nia]. }
    set (qs := map fst l). assert (E1 : forall p e, In (p, e) l -> e = 1).
    { intros p e H. pose proof F as (_ & A & _). destruct (A p e H) as (Hp & He). destruct (factorization_exponent N l p e F H) as (D & _). destruct (Z.eq_dec e 1) as [|Ne]; [assumption|exfalso]. apply (NS p Hp). apply Z.divide_trans with (p ^ e); [|exact D]. exists (p ^ (e - 2)). replace e with ((e - 2) + 2) at 1 by lia. rewrite Z.pow_add_r by lia. rewrite Z.pow_2_r. ring. }
    assert (Vq : zprod qs = N).
    { pose proof F as (_ & _ & V). rewrite <- V. unfold fac_value, qs. f_equal. apply map_ext_in. intros (p, e) H. cbn [fst snd]. rewrite (E1 p e H), Z.pow_1_r. reflexivity. }
    assert (Sqs : StronglySorted Z.lt qs).
    { pose proof F as (S & _). unfold qs. clear - S. induction S as [|x l S IH H]; cbn [map]; constructor; [exact IH|]. apply Forall_forall. intros y Hy. apply in_map_iff in Hy as (z & <- & Hz). rewrite Forall_forall in H. auto. }
    assert (Iq : forall p, In p qs <-> prime p /\ (p | N)).
    { intros p. split; [intros H|intros (Hp & D); apply (factorization_prime_divisor N l p F Hp), D]. assert (Hp : prime p) by (apply in_map_iff in H as ((q, e) & <- & H); pose proof F as (_ & A & _); apply A in H; apply H). split; [exact Hp|]. apply (factorization_prime_divisor N l p F Hp), H. }
    assert (G1 : forall p, In p qs -> 2 <= p) by (intros p Hp; apply Iq in Hp as (Hp & _); apply prime_ge2, Hp).
    set (A := filter (fun q => q <=? s) qs). set (B := filter (fun q => negb (q <=? s)) qs).
    assert (EA : filter (fun p => dv p N) ps = A).
    { apply sorted_lt_ext; [apply sorted_filter, Sp|apply sorted_filter, Sqs|]. intros p. unfold A. rewrite !filter_In, Pr, Iq, Z.leb_le. split.
      - intros ((Hp & Lp) & D). apply mod_div in D; [auto|]. pose proof (prime_ge2 p Hp). lia.
      - intros ((Hp & D) & Lp). split; [auto|]. apply mod_div; [|exact D]. pose proof (prime_ge2 p Hp). lia. }
    assert (Mx : mx ps N = (-1) ^ Z.of_nat (length A)).
    { unfold mx. rewrite <- EA, <- zprod_neg1, <- (zprod_filter (fun p => dv p N) (fun _ => -1)). f_equal. apply map_ext_in. intros p Hp. rewrite (Nsq p Hp). reflexivity. }
    assert (Vx : vx ps N = zprod A).
    { unfold vx. rewrite <- EA. transitivity (zprod (map (fun x => x) (filter (fun p => dv p N) ps))); [|rewrite map_id; reflexivity]. rewrite <- (zprod_filter (fun p => dv p N) (fun x => x)). f_equal. apply map_ext_in. intros p Hp. rewrite (Nsq p Hp). reflexivity. }
    assert (NA : N = zprod A * zprod B) by (rewrite <- Vq; apply zprod_split).
    assert (LA : length qs = (length A + length B)%nat) by apply length_split.
    assert (PA : 1 <= zprod A) by (apply zprod_ge1; intros x Hx; apply filter_In in Hx as (Hx & _); apply G1 in Hx; lia).
    assert (GB : forall q, In q B -> s < q /\ 2 <= q) by (intros q Hq; apply filter_In in Hq as (Hq & L); apply G1 in Hq; apply negb_true_iff, Z.leb_gt in L; auto).
    assert (X0 : (-1) ^ Z.of_nat (length A) <> 0) by (apply Z.pow_nonzero; lia).
    right. split; [exact NS|]. exists qs. split; [apply sorted_NoDup, Sqs|]. split; [exact Iq|]. unfold final. rewrite Mx, Vx, LA. destruct (Z.eqb_spec ((-1) ^ Z.of_nat (length A)) 0); [contradiction|]. cbn [negb andb].
    destruct B as [|b1 [|b2 B']] eqn:EB.
    + rewrite zprod_nil, Z.mul_1_r in NA. destruct (Z.ltb_spec (zprod A) N); [lia|]. rewrite Nat.add_0_r. reflexivity.
    + rewrite zprod_cons, zprod_nil, Z.mul_1_r in NA. destruct (GB b1 (or_introl eq_refl)). destruct (Z.ltb_spec (zprod A) N); [|nia]. cbn [length]. rewrite Nat.add_1_r, Nat2Z.inj_succ, Z.pow_succ_r by lia. ring.
    + exfalso. rewrite !zprod_cons in NA. destruct (GB b1 (or_introl eq_refl)) as (L1 & _). destruct (GB b2 (or_intror (or_introl eq_refl))) as (L2 & _).
      assert (1 <= zprod B') by (apply zprod_ge1; intros x Hx; destruct (GB x (or_intror (or_intror Hx))); lia). assert (P2 : (s + 1) * (s + 1) <= b1 * b2) by nia. assert (b1 * b2 <= N); [|lia]. rewrite NA. clear - H PA L1 L2 Hs. assert (1 <= zprod A * zprod B') by nia. assert (0 <= b1 * b2) by nia. nia.
Qed.

(** ** The loops *)
Lemma mu_sweep_gen p start is : 0 < p -> forall block values, NoDup is -> zlen values = zlen block -> (forall i, In i is -> 0 <= i < zlen block) ->
  exists block' values', foldM (fun '(block, values) i =>
    do r <- pymod (start + i) (p * p);
    if r =? 0 then do block <- pyset block i 0; Ret (block, values)
    else do x <- pyget block i; do block <- pyset block i (x * -1); do v <- pyget values i; do values <- pyset values i (v * p); Ret (block, values)) is (block, values) = Ret (block', values') /\
  zlen block' = zlen block /\ zlen values' = zlen block /\
  forall j, (In j is -> rd block' j = rd block j * (if sq p (start + j) then 0 else -1) /\ rd values' j = rd values j * (if sq p (start + j) then 1 else p)) /\
    (~ In j is -> rd block' j = rd block j /\ rd values' j = rd values j).
Proof.
  intros Hp. induction is as [|i is IH]; intros block values ND LV B.
  - exists block, values. split; [reflexivity|]. split; [reflexivity|]. split; [exact LV|]. intros j. split; [intros []|auto].
  - inversion ND as [|? ? Ni ND']; subst. pose proof (B i (or_introl eq_refl)) as Bi. cbn [foldM]. unfold pymod at 1. destruct (Z.eqb_spec (p * p) 0); [nia|]. cbn [bind]. fold (sq p (start + i)).
    assert (X : exists b1 v1, (if sq p (start + i) then do block <- pyset block i 0; Ret (block, values)
      else do x <- pyget block i; do block <- pyset block i (x * -1); do v <- pyget values i; do values <- pyset values i (v * p); Ret (block, values)) = Ret (b1, v1) /\ zlen b1 = zlen block /\ zlen v1 = zlen block /\
      forall j, rd b1 j = (if j =? i then rd block j * (if sq p (start + j) then 0 else -1) else rd block j) /\ rd v1 j = (if j =? i then rd values j * (if sq p (start + j) then 1 else p) else rd values j)).
    { destruct (sq p (start + i)) eqn:Eq.
      - destruct (rd_set block i 0 Bi) as (b1 & -> & L1 & R1). exists b1, values. cbn [bind]. split; [reflexivity|]. split; [exact L1|]. split; [exact LV|]. intros j. rewrite R1. destruct (Z.eqb_spec j i) as [->|]; [rewrite Eq; lia|auto].
      - rewrite (rd_get block) by exact Bi. cbn [bind]. destruct (rd_set block i (rd block i * -1) Bi) as (b1 & -> & L1 & R1). cbn [bind]. rewrite (rd_get values) by lia. cbn [bind]. destruct (rd_set values i (rd values i * p) ltac:(lia)) as (v1 & -> & L2 & R2). cbn [bind]. exists b1, v1. split; [reflexivity|]. split; [exact L1|]. split; [lia|]. intros j. rewrite R1, R2. destruct (Z.eqb_spec j i) as [->|]; [rewrite Eq; auto|auto]. }
    destruct X as (b1 & v1 & -> & L1 & L2 & R). cbn [bind]. destruct (IH b1 v1 ND' ltac:(lia)) as (b2 & v2 & E2 & L3 & L4 & R2); [intros j Hj; rewrite L1; apply B; right; exact Hj|].
    exists b2, v2. split; [exact E2|]. split; [lia|]. split; [lia|]. intros j. destruct (R j) as (Rb & Rv). destruct (R2 j) as (Q1 & Q2). destruct (Z.eq_dec j i) as [Eji|N]; [subst j; rewrite Z.eqb_refl in Rb, Rv|rewrite (proj2 (Z.eqb_neq j i) N) in Rb, Rv].
    + destruct (Q2 Ni) as (-> & ->). rewrite Rb, Rv. split; [auto|]. intros H. exfalso. apply H. left. reflexivity.
    + split.
      * intros [E|Hj]; [congruence|]. destruct (Q1 Hj) as (-> & ->). rewrite Rb, Rv. auto.
      * intros Hj. destruct (Q2 (fun X => Hj (or_intror X))) as (-> & ->). auto.
Qed.

(** The tables after the primes [ps], for the entries that stand for positive numbers. *)
Definition tables (size start : Z) (lo : Z) (ps : list Z) (s : list Z * list Z) : Prop :=
  zlen (fst s) = size /\ zlen (snd s) = size /\ forall i, lo <= i < size -> rd (fst s) i = mx ps (start + i) /\ rd (snd s) i = vx ps (start + i).

Lemma mu_sweep_ok size start lo a p ps s : 0 < p -> 0 <= a -> (forall i, lo <= i < size -> (a <= i /\ (p | i - a) <-> (p | start + i))) -> tables size start lo ps s ->
  exists s', mu_sweep a size p start s = Ret s' /\ tables size start lo (ps ++ [p]) s' /\ (forall i, 0 <= i < a -> rd (fst s') i = rd (fst s) i /\ rd (snd s') i = rd (snd s) i).
Proof.
  intros Hp Ha Hi. destruct s as (block, values). intros (L1 & L2 & T). cbn [fst snd] in *. unfold mu_sweep.
  destruct (mu_sweep_gen p start (srange a size p) Hp block values) as (b' & v' & E & L3 & L4 & R).
  - apply srange_NoDup, Hp.
  - lia.
  - intros i Hx. apply srange_In in Hx; lia.
  - exists (b', v'). split; [exact E|]. split.
    + split; [cbn [fst]; lia|]. split; [cbn [snd]; lia|]. intros i Hx. cbn [fst snd]. destruct (T i Hx) as (Tb & Tv). destruct (R i) as (R1 & R2). unfold mx, vx. rewrite !map_app, !zprod_app. cbn [map]. rewrite !zprod_cons, !zprod_nil, !Z.mul_1_r. fold (mx ps (start + i)). fold (vx ps (start + i)). rewrite <- Tb, <- Tv.
      assert (I1 : In i (srange a size p) <-> dv p (start + i) = true). { rewrite srange_In by exact Hp. unfold dv. rewrite mod_div by exact Hp. specialize (Hi i Hx). rewrite <- Hi. split; [tauto|]. intros (A & D). split; [lia|exact D]. }
      destruct (dv p (start + i)) eqn:Ed.
      * destruct (R1 (proj2 I1 eq_refl)) as (-> & ->). auto.
      * assert (NI : ~ In i (srange a size p)) by (intros X; apply I1 in X; discriminate). destruct (R2 NI) as (-> & ->). lia.
    + intros i Hx. apply R. intros X. apply srange_In in X; lia.
Qed.

(** ** [moebius_list] *)
Lemma moebius_list_ok n : 1 <= n < 2 ^ 104 -> exists block, moebius_list n = Ret block /\ zlen block = n + 1 /\ rd block 0 = 0 /\ forall k, 1 <= k <= n -> is_moebius k (rd block k).
Proof.
  intros Hn. unfold moebius_list. destruct (Z.leb_spec n 0); [lia|]. destruct (int_pow_half_bounds n ltac:(lia)) as (s & -> & Hs). cbn [bind]. assert (Sn : 0 <= s /\ n < (s + 1) * (s + 1)). { pose proof (Z.sqrt_spec n ltac:(lia)) as Sq. cbv zeta in Sq. pose proof (Z.sqrt_nonneg n). split; [lia|]. clear Hn. nia. } assert (Hn1 : 1 <= n) by lia. clear Hn Hs.
  destruct (C14_primes s) as (ps & -> & Pr). cbn [bind]. destruct (init_block n Hn1) as (b0 & -> & L0 & R0). cbn [bind].
  destruct (foldM_inv (fun s p => mu_sweep p (n + 1) p 0 s) (fun pre s => tables (n + 1) 0 1 pre s /\ rd (fst s) 0 = 0) ps (b0, repeat 1 (Z.to_nat (n + 1)))) as ((b1, v1) & E & (L1 & L2 & T) & Z0).
  - split; [|cbn [fst]; rewrite R0 by lia; reflexivity]. split; [exact L0|]. split; [cbn [snd]; rewrite zlen_repeat; lia|]. intros i Hi. cbn [fst snd]. rewrite R0 by lia. unfold mx, vx. cbn [map]. rewrite zprod_nil. destruct (Z.eqb_spec i 0); [lia|]. split; [reflexivity|]. unfold rd. destruct (Z.ltb_spec i 0); [lia|]. rewrite (nth_indep _ 0 1) by (rewrite repeat_length; lia). apply nth_repeat.
  - intros pre p post s0 Eps (T & Z0). assert (Hp : prime p) by (apply Pr; rewrite Eps; apply in_elt). pose proof (prime_ge2 p Hp). destruct (mu_sweep_ok (n + 1) 0 1 p p pre s0) as (s' & E & T' & Low); [lia|lia| |exact T|].
    + intros i Hi. rewrite Z.add_0_l. split; [intros (A & c & Ec); exists (c + 1); lia|]. intros D. split; [apply Z.divide_pos_le; [lia|exact D]|]. apply Z.divide_sub_r; [exact D|apply Z.divide_refl].
    + exists s'. split; [exact E|]. split; [exact T'|]. destruct (Low 0 ltac:(lia)) as (-> & _). exact Z0.
  - rewrite E. cbn [bind fst snd] in *.
    destruct (foldM_range (fun block i => mu_fix 0 i block v1) (fun x b => zlen b = n + 1 /\ forall i, 0 <= i <= n -> rd b i = if i <? x then final i (rd b1 i) (rd v1 i) else rd b1 i) 0 (n + 1) b1) as (b & Eb & Lb & Rb); [lia| | |].
    + split; [exact L1|]. intros i Hi. destruct (Z.ltb_spec i 0); [lia|reflexivity].
    + intros x b Hx (Lb & Rb). unfold mu_fix. rewrite (rd_get b), (rd_get v1) by lia. cbn [bind]. rewrite (Rb x) by lia. rewrite Z.ltb_irrefl, Z.add_0_l. unfold final in *. destruct (negb (rd b1 x =? 0) && (rd v1 x <? x)) eqn:C.
      * destruct (rd_set b x (rd b1 x * -1) ltac:(lia)) as (b' & -> & Lb' & Rb'). exists b'. split; [reflexivity|]. split; [lia|]. intros i Hi. rewrite Rb'. destruct (Z.eqb_spec i x) as [->|]; [destruct (Z.ltb_spec x (x + 1)); [rewrite C; reflexivity|lia]|]. rewrite Rb by exact Hi. destruct (Z.ltb_spec i x), (Z.ltb_spec i (x + 1)); try lia; reflexivity.
      * exists b. split; [reflexivity|]. split; [lia|]. intros i Hi. rewrite Rb by exact Hi. destruct (Z.ltb_spec i x), (Z.ltb_spec i (x + 1)); try lia; try reflexivity. assert (i = x) as -> by lia. rewrite C. reflexivity.
    + exists b. split; [exact Eb|]. split; [exact Lb|]. split.
      * rewrite Rb by lia. destruct (Z.ltb_spec 0 (n + 1)); [|lia]. rewrite Z0. reflexivity.
      * intros k Hk. rewrite Rb by lia. destruct (Z.ltb_spec k (n + 1)); [|lia]. destruct (T k ltac:(lia)) as (-> & ->). rewrite Z.add_0_l. apply (final_moebius s); [lia|lia|exact Pr].
Qed.

(** ** [moebius_range] *)
Lemma mu_emit_ok b start size block values : zlen block = size -> zlen values = size -> forall m i0, 0 <= i0 -> size - i0 = Z.of_nat m ->
  (forall i, i0 <= i < size -> start + i < b -> is_moebius (start + i) (final (start + i) (rd block i) (rd values i))) ->
  exists l stop, mu_emit b start (zrange i0 size) block values = Ret (l, stop) /\ map fst l = zrange (start + i0) (Z.min b (start + size)) /\
    (forall k m, In (k, m) l -> is_moebius k m) /\ stop = (i0 <? size) && (b <? start + size).
Proof.
  intros L1 L2 m. revert block L1. induction m as [|m IH]; intros block L1 i0 H0 Em G.
  - rewrite zrange_nil by lia. exists [], false. split; [reflexivity|]. split; [rewrite zrange_nil by lia; reflexivity|]. split; [intros k m []|]. destruct (Z.ltb_spec i0 size); [lia|reflexivity].
  - rewrite zrange_cons by lia. cbn [mu_emit]. destruct (Z.leb_spec b (start + i0)).
    + exists [], true. split; [reflexivity|]. split; [rewrite zrange_nil by lia; reflexivity|]. split; [intros k q []|]. destruct (Z.ltb_spec b (start + size)), (Z.ltb_spec i0 size); try lia; reflexivity.
    + assert (X : exists b1, mu_fix start i0 block values = Ret b1 /\ zlen b1 = size /\ rd b1 i0 = final (start + i0) (rd block i0) (rd values i0) /\ forall i, i <> i0 -> rd b1 i = rd block i).
      { unfold mu_fix, final. rewrite (rd_get block), (rd_get values) by lia. cbn [bind]. destruct (negb (rd block i0 =? 0) && (rd values i0 <? start + i0)) eqn:C.
        - destruct (rd_set block i0 (rd block i0 * -1) ltac:(lia)) as (b1 & -> & Lb & Rb). exists b1. split; [reflexivity|]. split; [lia|]. split; [rewrite Rb, Z.eqb_refl; reflexivity|]. intros i Ni. rewrite Rb. destruct (Z.eqb_spec i i0); [contradiction|reflexivity].
        - exists block. auto. }
      destruct X as (b1 & -> & Lb1 & Rb1 & Ro). cbn [bind]. rewrite rd_get by lia. cbn [bind]. destruct (IH b1 Lb1 (i0 + 1) ltac:(lia) ltac:(lia)) as (l & stop & -> & El & Ml & Sl).
      * intros i Hi Lb. rewrite Ro by lia. apply G; lia.
      * cbn [bind]. exists ((start + i0, rd b1 i0) :: l), stop. split; [reflexivity|]. split; [cbn [map fst]; rewrite El, (zrange_cons (start + i0)) by lia; do 2 f_equal; lia|]. split.
        -- intros k q [E|H1]; [|apply Ml, H1]. injection E as <- <-. rewrite Rb1. apply G; lia.
        -- rewrite Sl. destruct (Z.ltb_spec b (start + size)), (Z.ltb_spec i0 size), (Z.ltb_spec (i0 + 1) size); try lia; reflexivity.
Qed.


Lemma offset_ok a t size start p : 0 < p <= size -> start = a + t * size -> ((p * (start / p + 1) - a) mod size) mod p = (- start) mod p.
Proof.
  intros Hp Es. pose proof (Z.div_mod start p ltac:(lia)) as DM. pose proof (Z.mod_pos_bound start p ltac:(lia)) as MB.
  replace (p * (start / p + 1) - a) with (p * (start / p + 1) - start + t * size) by lia. rewrite Z_mod_plus_full. set (y := p * (start / p + 1) - start). assert (Hy : 1 <= y <= p) by (subst y; lia).
  assert (Em : y mod p = (- start) mod p). { subst y. replace (p * (start / p + 1) - start) with (- start + (start / p + 1) * p) by ring. apply Z_mod_plus_full. }
  destruct (Z.eq_dec y size) as [E|N].
  - assert (y = p) by lia. rewrite E, Z_mod_same_full, Z.mod_0_l by lia. rewrite <- Em. assert (y = p) as -> by lia. rewrite Z_mod_same_full. reflexivity.
  - rewrite (Z.mod_small y size) by lia. exact Em.
Qed.

Lemma mu_blocks_ok a b size ps : 1 <= a -> 1 <= size -> b <= (size + 1) * (size + 1) -> primes_upto size ps -> forall m t, 0 <= t -> slice_len a b size - t = Z.of_nat m ->
  exists l, mu_blocks a b size ps (map (fun i => a + i * size) (zrange t (slice_len a b size))) = Ret l /\ map fst l = zrange (a + t * size) b /\ forall k q, In (k, q) l -> is_moebius k q.
Proof.
  intros Ha Hs Hb Pr. set (T := slice_len a b size). assert (ET : b <= a + T * size). { destruct (Z_le_gt_dec b (a + T * size)) as [|G]; [assumption|]. assert (T0 : 0 <= T). { unfold T, slice_len. destruct (a <? b) eqn:L; [|lia]. apply Z.ltb_lt in L. pose proof (Z.div_pos (b - a - 1) size ltac:(lia) ltac:(lia)). lia. } exfalso. pose proof (slice_len_spec a b size T ltac:(lia)) as X. fold T in X. lia. }
  induction m as [|m IH]; intros t Ht Em.
  - rewrite (zrange_nil t T) by lia. cbn [map mu_blocks]. exists []. split; [reflexivity|]. split; [rewrite zrange_nil by nia; reflexivity|intros k q []].
  - assert (Lt : a + t * size < b) by (apply (slice_len_spec a b size t); fold T; lia). rewrite (zrange_cons t T) by lia. cbn [map mu_blocks]. set (start := a + t * size) in *. assert (S1 : 1 <= start) by (unfold start; nia).
    destruct (foldM_inv (fun s p => do q <- pydiv start p; do r <- pymod (p * (q + 1) - a) size; do offset <- pymod r p; mu_sweep offset size p start s) (fun pre s => tables size start 0 pre s) ps (repeat 1 (Z.to_nat size), repeat 1 (Z.to_nat size))) as ((b1, v1) & E & L1 & L2 & Tb).
    + split; [cbn [fst]; rewrite zlen_repeat; lia|]. split; [cbn [snd]; rewrite zlen_repeat; lia|]. intros i Hi. cbn [fst snd]. assert (R1 : rd (repeat 1 (Z.to_nat size)) i = 1). { unfold rd. destruct (Z.ltb_spec i 0); [lia|]. rewrite (nth_indep _ 0 1) by (rewrite repeat_length; lia). apply nth_repeat. } rewrite R1. split; reflexivity.
    + intros pre p post s0 Eps Tb. assert (Hp : prime p /\ p <= size) by (apply Pr; rewrite Eps; apply in_elt). destruct Hp as (Hp & Lp). pose proof (prime_ge2 p Hp). unfold pydiv, pymod. destruct (Z.eqb_spec p 0); [lia|]. cbn [bind]. destruct (Z.eqb_spec size 0); [lia|]. cbn [bind]. rewrite (offset_ok a t) by (try lia; reflexivity). pose proof (Z.mod_pos_bound (- start) p ltac:(lia)) as MB. pose proof (Z.div_mod (- start) p ltac:(lia)) as DM. set (o := (- start) mod p) in *. set (d := - start / p) in *.
      destruct (mu_sweep_ok size start 0 o p pre s0) as (s' & E & T' & _); [lia|lia| |exact Tb|exists s'; auto].
      intros i Hi. split.
      * intros (_ & c & Ec). exists (c - d). nia.
      * intros (c & Ec). split; [|exists (c + d); lia]. destruct (Z_le_gt_dec o i) as [|G]; [assumption|exfalso]. assert (Ei : i = (c + d) * p + o) by lia. clear - Ei G Hi MB. set (z := c + d) in *. clearbody z. destruct (Z_le_gt_dec 0 z); nia.
    + rewrite E. cbn [bind fst snd] in *. destruct (mu_emit_ok b start size b1 v1 L1 L2 (Z.to_nat size) 0 ltac:(lia) ltac:(lia)) as (l & stop & -> & El & Ml & Es).
      * intros i Hi Lb. destruct (Tb i Hi) as (-> & ->). apply (final_moebius size); [lia|lia|exact Pr].
      * cbn [bind]. rewrite Z.add_0_r in El. assert (Es' : stop = (b <? start + size)) by (rewrite Es; destruct (Z.ltb_spec 0 size); [reflexivity|lia]). rewrite Es'. destruct (Z.ltb_spec b (start + size)) as [Lb|Gb].
        -- exists l. split; [reflexivity|]. split; [rewrite El; f_equal; lia|exact Ml].
        -- destruct (IH (t + 1) ltac:(lia) ltac:(lia)) as (l' & -> & El' & Ml'). cbn [bind]. exists (l ++ l'). split; [reflexivity|]. split.
           ++ rewrite map_app, El, El'. replace (Z.min b (start + size)) with (start + size) by lia. replace (a + (t + 1) * size) with (start + size) by (unfold start; ring). symmetry. apply zrange_app. lia.
           ++ intros k q H. apply in_app_or in H as [H|H]; [apply Ml, H|apply Ml', H].
Qed.

Lemma moebius_range_ok a b : exists l, moebius_range a (Some b) = Ret l /\ map fst l = zrange (Z.max 1 a) b /\ forall k q, In (k, q) l -> is_moebius k q.
Proof.
  unfold moebius_range. cbv zeta. replace (if a <? 2 then 1 else a) with (Z.max 1 a) by (destruct (Z.ltb_spec a 2); lia). set (c := Z.max 1 a). assert (1 <= c) by lia. destruct (Z.leb_spec b c).
  - exists []. split; [reflexivity|]. split; [rewrite zrange_nil by lia; reflexivity|intros k q []].
  - destruct (C04_integer_sqrt_near b ltac:(lia)) as (size & -> & Hs). cbn [bind]. destruct (C14_primes size) as (ps & -> & Pr). cbn [bind].
    pose proof (Z.sqrt_spec b ltac:(lia)) as Sq. cbv zeta in Sq. pose proof (Z.sqrt_pos b) as (_ & S0). assert (1 <= Z.sqrt b) by lia.
    destruct (mu_blocks_ok c b size ps ltac:(lia) ltac:(lia) ltac:(nia) Pr (Z.to_nat (slice_len c b size)) 0 ltac:(lia)) as (l & E & El & Ml).
    + unfold slice_len. destruct (Z.ltb_spec c b); [|lia]. pose proof (Z.div_pos (b - c - 1) size ltac:(lia) ltac:(lia)). lia.
    + exists l. split; [exact E|]. split; [rewrite El; f_equal; lia|exact Ml].
Qed.

Lemma moebius_range_one a : moebius_range a None = moebius_range 1 (Some (if a <? 2 then 1 else a)).
Proof. unfold moebius_range. cbv zeta. destruct (a <? 2); reflexivity. Qed.
