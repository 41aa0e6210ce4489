(** * Proofs about the counting sieves *)
From Coq Require Import ZArith List Lia Bool.
From Verif Require Import Base Bit_Model Bit_Spec.
Import ListNotations.
Open Scope Z_scope.

(** Number of x in (a, b] satisfying [un]. *)
Definition cnt (un : Z -> bool) (a b : Z) : Z := Z.of_nat (length (filter un (zrange (a + 1) (b + 1)))).

Lemma cnt_split un a b c : a <= b <= c -> cnt un a c = cnt un a b + cnt un b c.
Proof.
  intros H. unfold cnt. rewrite (zrange_app (a + 1) (b + 1) (c + 1)) by lia.
  rewrite filter_app, app_length. lia.
Qed.

Lemma cnt_one un a : cnt un a (a + 1) = if un (a + 1) then 1 else 0.
Proof.
  unfold cnt. rewrite zrange_cons by lia. rewrite zrange_nil by lia. cbn [filter].
  destruct (un (a + 1)); reflexivity.
Qed.

Lemma cnt_ext un un' a b : (forall x, a < x <= b -> un x = un' x) -> cnt un a b = cnt un' a b.
Proof.
  intros H. unfold cnt. do 2 f_equal. apply filter_ext_in. intros x Hx. apply zrange_In in Hx. apply H. lia.
Qed.

Lemma cnt_remove un x a b : a < x <= b -> un x = true ->
  cnt (fun y => un y && negb (y =? x)) a b = cnt un a b - 1.
Proof.
  intros H Hx. set (un' := fun y => un y && negb (y =? x)).
  rewrite (cnt_split un' a (x - 1) b), (cnt_split un' (x - 1) x b), (cnt_split un a (x - 1) b), (cnt_split un (x - 1) x b) by lia.
  rewrite (cnt_ext un' un a (x - 1)), (cnt_ext un' un x b).
  - replace (cnt un' (x - 1) x) with 0; [replace (cnt un (x - 1) x) with 1; [lia|]|].
    + replace x with ((x - 1) + 1) at 2 by lia. rewrite cnt_one. replace (x - 1 + 1) with x by lia. rewrite Hx. reflexivity.
    + replace x with ((x - 1) + 1) at 2 by lia. rewrite cnt_one. replace (x - 1 + 1) with x by lia.
      unfold un'. rewrite Z.eqb_refl, andb_false_r. reflexivity.
  - intros y Hy. unfold un'. destruct (Z.eqb_spec y x); [lia|]. apply andb_true_r.
  - intros y Hy. unfold un'. destruct (Z.eqb_spec y x); [lia|]. apply andb_true_r.
Qed.

(** Block j of level i is ((j-1) 2^i, j 2^i]; level i has n / 2^i of them. *)
Definition blk (un : Z -> bool) (i j : Z) : Z := cnt un ((j - 1) * 2 ^ i) (j * 2 ^ i).
Definition lev (n i : Z) : Z := n / 2 ^ i.

Lemma lev_shift n i : 0 <= i -> Z.shiftr n i = lev n i.
Proof. intros H. apply Z.shiftr_div_pow2, H. Qed.

Lemma lev_succ n i : 0 <= i -> lev n (i + 1) = lev n i / 2.
Proof. intros H. unfold lev. rewrite Z.pow_add_r by lia. rewrite Z.div_div; [reflexivity| |]; [apply Z.pow_nonzero|]; lia. Qed.

Lemma blk_succ un i j : 0 <= i -> blk un (i + 1) j = blk un i (2 * j - 1) + blk un i (2 * j).
Proof.
  intros H. unfold blk. rewrite Z.pow_add_r by lia. change (2 ^ 1) with 2. pose proof (Z.pow_pos_nonneg 2 i).
  rewrite (cnt_split un ((j - 1) * (2 ^ i * 2)) ((2 * j - 1) * 2 ^ i)) by nia.
  f_equal; f_equal; lia.
Qed.

Definition binv (n : Z) (un : Z -> bool) (get : Z -> Z -> outcome Z) : Prop :=
  forall i j, 0 <= i -> 1 <= j <= lev n i -> get i j = Ret (blk un i j).

(** partial_sum adds up the blocks of the binary decomposition of m. *)
Lemma psum_ok n un get : binv n un get -> forall fuel m i total, 0 <= i -> 0 <= m <= lev n i ->
  (m < 2 ^ Z.of_nat fuel) -> psum fuel get m i total = Ret (total + cnt un 0 (m * 2 ^ i)).
Proof.
  intros H. induction fuel as [|f IH]; intros m i total Hi Hm Hf; cbn [psum]; destruct (Z.eqb_spec m 0) as [->|Hn].
  - rewrite Z.mul_0_l. unfold cnt. rewrite zrange_nil by lia. cbn. f_equal. lia.
  - cbn in Hf. lia.
  - rewrite Z.mul_0_l. unfold cnt. rewrite zrange_nil by lia. cbn. f_equal. lia.
  - rewrite Nat2Z.inj_succ, Z.pow_succ_r in Hf by lia.
    assert (Hsh : Z.shiftr m 1 = m / 2) by (rewrite Z.shiftr_div_pow2 by lia; reflexivity).
    assert (Hrec : forall t, psum f get (Z.shiftr m 1) (i + 1) t = Ret (t + cnt un 0 (m / 2 * 2 ^ (i + 1)))).
    { intros t. rewrite Hsh. apply IH.
      - lia.
      - rewrite lev_succ by lia. split; [apply Z.div_pos; lia|apply Z.div_le_mono; lia].
      - apply Z.div_lt_upper_bound; lia. }
    pose proof (Z.pow_pos_nonneg 2 i ltac:(lia) Hi) as Hp.
    pose proof (Z.div_mod m 2 ltac:(lia)) as Hd. pose proof (Z.mod_pos_bound m 2 ltac:(lia)) as Hb.
    assert (Hpow : m / 2 * 2 ^ (i + 1) = (m - m mod 2) * 2 ^ i).
    { rewrite Z.pow_add_r by lia. change (2 ^ 1) with 2. nia. }
    destruct (Z.eqb_spec (m mod 2) 0) as [E|E].
    + cbn [bind]. rewrite Hrec, Hpow, E. rewrite Z.sub_0_r. reflexivity.
    + rewrite (H i m) by lia. cbn [bind]. rewrite Hrec, Hpow. f_equal.
      replace (m mod 2) with 1 by lia. unfold blk. rewrite (cnt_split un 0 ((m - 1) * 2 ^ i) (m * 2 ^ i)) by nia. lia.
Qed.

Lemma psum_top n un get m : binv n un get -> 0 <= m <= n ->
  psum (Z.to_nat (bit_length m)) get m 0 0 = Ret (cnt un 0 m).
Proof.
  intros H Hm. rewrite (psum_ok n un get H).
  - f_equal. rewrite Z.add_0_l. f_equal. change (2 ^ 0) with 1. lia.
  - lia.
  - unfold lev. change (2 ^ 0) with 1. rewrite Z.div_1_r. lia.
  - unfold bit_length. destruct (Z.eqb_spec m 0); [subst; cbn; lia|].
    rewrite Z.abs_eq by lia. pose proof (Z.log2_nonneg m). rewrite Z2Nat.id by lia.
    destruct (Z.log2_spec m); [lia|]. rewrite <- Z.add_1_r in *. lia.
Qed.

(** The block of level i containing x. *)
Definition home (x i : Z) : Z := (x - 1) / 2 ^ i + 1.

Lemma home_0 x : home x 0 = x.
Proof. unfold home. change (2 ^ 0) with 1. rewrite Z.div_1_r. lia. Qed.

Lemma home_succ x i : 0 <= i -> home x (i + 1) = (home x i + 1) / 2.
Proof.
  intros H. unfold home. rewrite Z.pow_add_r by lia.
  rewrite <- Z.div_div; [|apply Z.pow_nonzero; lia|lia]. change (2 ^ 1) with 2.
  set (q := (x - 1) / 2 ^ i). replace (q + 1 + 1) with (q + 1 * 2) by lia. rewrite Z.div_add by lia. reflexivity.
Qed.

Lemma home_pos x i : 1 <= x -> 0 <= i -> 1 <= home x i.
Proof. intros H Hi. unfold home. pose proof (Z.div_pos (x - 1) (2 ^ i)). pose proof (Z.pow_pos_nonneg 2 i). lia. Qed.

Lemma home_iff x i j : 0 <= i -> (j - 1) * 2 ^ i < x <= j * 2 ^ i <-> j = home x i.
Proof.
  intros Hi. unfold home. pose proof (Z.pow_pos_nonneg 2 i ltac:(lia) Hi) as Hp.
  pose proof (Z.div_mod (x - 1) (2 ^ i) ltac:(lia)). pose proof (Z.mod_pos_bound (x - 1) (2 ^ i) Hp).
  split.
  - intros H1. assert ((x - 1) / 2 ^ i = j - 1); [|lia]. symmetry. apply Z.div_unique with (r := x - 1 - (j - 1) * 2 ^ i); lia.
  - intros ->. nia.
Qed.

Lemma blk_remove un x i j : 0 <= i -> un x = true ->
  blk (fun y => un y && negb (y =? x)) i j = if j =? home x i then blk un i j - 1 else blk un i j.
Proof.
  intros Hi Hx. unfold blk. destruct (Z.eqb_spec j (home x i)) as [E|E].
  - apply cnt_remove; [|exact Hx]. apply home_iff; assumption.
  - apply cnt_ext. intros y Hy. destruct (Z.eqb_spec y x); [|apply andb_true_r].
    subst y. exfalso. apply E. apply home_iff; assumption.
Qed.

Lemma home_out n x i : 0 <= i -> lev n i < home x i -> lev n (i + 1) < home x (i + 1).
Proof.
  intros Hi H. rewrite lev_succ, home_succ by lia.
  assert ((lev n i + 1 * 2) / 2 <= (home x i + 1) / 2) by (apply Z.div_le_mono; lia).
  rewrite Z.div_add in * by lia. lia.
Qed.

Lemma lev_0 n : lev n 0 = n.
Proof. unfold lev. change (2 ^ 0) with 1. apply Z.div_1_r. Qed.

Lemma lev_zero n i : 0 <= n -> bit_length n <= i -> lev n i = 0.
Proof.
  intros Hn Hi. unfold lev. apply Z.div_small. split; [lia|]. unfold bit_length in Hi.
  destruct (Z.eqb_spec n 0); [subst; apply Z.pow_pos_nonneg; lia|]. rewrite Z.abs_eq in Hi by lia.
  destruct (Z.log2_spec n); [lia|]. eapply Z.lt_le_trans; [eassumption|]. apply Z.pow_le_mono_r; lia.
Qed.

Lemma bit_length_nonneg n : 0 <= bit_length n.
Proof. unfold bit_length. destruct (_ =? _); [lia|]. pose proof (Z.log2_nonneg (Z.abs n)). lia. Qed.

(** ** BITSieve *)
Definition bwf (b : bit) : Prop :=
  0 <= bn b /\ forall i j, 0 <= i -> 1 <= j ->
    bparent b i j = if (j + 1) / 2 <=? lev (bn b) (i + 1) then Some (i + 1, (j + 1) / 2) else None.

Lemma get2_set2 {V} (A : Z -> Z -> option V) i j v i' j' :
  get2 (set2 A i j v) i' j' = if (i' =? i) && (j' =? j) then Ret v else get2 A i' j'.
Proof. unfold get2, set2. destruct (_ && _); reflexivity. Qed.

Lemma climb_ok b un x : bwf b -> un x = true -> 1 <= x <= bn b -> forall fuel A i,
  0 <= i -> home x i <= lev (bn b) i -> bit_length (bn b) <= i + Z.of_nat fuel ->
  (forall k j, 0 <= k -> 1 <= j <= lev (bn b) k ->
     get2 A k j = Ret (if k <=? i then blk (fun y => un y && negb (y =? x)) k j else blk un k j)) ->
  exists A', bit_climb fuel (bparent b) A i (home x i) = Ret A' /\
    binv (bn b) (fun y => un y && negb (y =? x)) (get2 A').
Proof.
  intros [Hn W] Hx Hr. induction fuel as [|f IH]; intros A i Hi Hh Hf HA; cbn [bit_climb];
    rewrite W by (try apply home_pos; lia); rewrite <- home_succ by lia;
    destruct (Z.leb_spec (home x (i + 1)) (lev (bn b) (i + 1))) as [L|L].
  - exfalso. pose proof (home_pos x (i + 1)). rewrite lev_zero in L by lia. lia.
  - exists A. split; [reflexivity|]. intros k j Hk Hj. rewrite HA by assumption.
    destruct (Z.leb_spec k i); [reflexivity|]. rewrite blk_remove by assumption.
    destruct (Z.eqb_spec j (home x k)); [|reflexivity]. exfalso.
    assert (Q : forall d : nat, lev (bn b) (i + 1 + Z.of_nat d) < home x (i + 1 + Z.of_nat d)).
    { induction d as [|d IHd]; [rewrite Z.add_0_r; exact L|].
      replace (i + 1 + Z.of_nat (S d)) with (i + 1 + Z.of_nat d + 1) by lia. apply home_out; [lia|exact IHd]. }
    specialize (Q (Z.to_nat (k - i - 1))). replace (i + 1 + Z.of_nat (Z.to_nat (k - i - 1))) with k in Q by lia. lia.
  - rewrite (HA (i + 1) (home x (i + 1))) by (try split; try apply home_pos; lia). cbn [bind].
    destruct (Z.leb_spec (i + 1) i); [lia|].
    apply IH; [lia|exact L|lia|].
    intros k j Hk Hj. rewrite get2_set2. destruct (Z.eqb_spec k (i + 1)) as [->|Hki].
    + cbn [andb]. destruct (Z.leb_spec (i + 1) (i + 1)); [|lia]. rewrite blk_remove by (assumption || lia).
      destruct (Z.eqb_spec j (home x (i + 1))); [subst; reflexivity|]. rewrite HA by (assumption || lia).
      destruct (Z.leb_spec (i + 1) i); [lia|reflexivity].
    + cbn [andb]. rewrite HA by (assumption || lia).
      destruct (Z.leb_spec k i), (Z.leb_spec k (i + 1)); try reflexivity; lia.
  - exists A. split; [reflexivity|]. intros k j Hk Hj. rewrite HA by assumption.
    destruct (Z.leb_spec k i); [reflexivity|]. rewrite blk_remove by assumption.
    destruct (Z.eqb_spec j (home x k)); [|reflexivity]. exfalso.
    assert (Q : forall d : nat, lev (bn b) (i + 1 + Z.of_nat d) < home x (i + 1 + Z.of_nat d)).
    { induction d as [|d IHd]; [rewrite Z.add_0_r; exact L|].
      replace (i + 1 + Z.of_nat (S d)) with (i + 1 + Z.of_nat d + 1) by lia. apply home_out; [lia|exact IHd]. }
    specialize (Q (Z.to_nat (k - i - 1))). replace (i + 1 + Z.of_nat (Z.to_nat (k - i - 1))) with k in Q by lia. lia.
Qed.

Lemma blk_0 un x : blk un 0 x = if un x then 1 else 0.
Proof.
  unfold blk. change (2 ^ 0) with 1. rewrite !Z.mul_1_r.
  replace x with (x - 1 + 1) at 2 by lia. rewrite cnt_one. replace (x - 1 + 1) with x by lia. reflexivity.
Qed.

Lemma binv_ext n un un' get : (forall x, 1 <= x <= n -> un x = un' x) -> 0 <= n -> binv n un get -> binv n un' get.
Proof.
  intros E Hn H i j Hi Hj. rewrite (H i j Hi Hj). f_equal. apply cnt_ext. intros x Hx. apply E.
  pose proof (Z.pow_pos_nonneg 2 i ltac:(lia) Hi) as Hp.
  assert (2 ^ i * lev n i <= n) by (apply Z.mul_div_le; lia). nia.
Qed.

Lemma mark1_ok b un A x : bwf b -> 1 <= x <= bn b -> binv (bn b) un (get2 A) ->
  exists A', bit_mark1 b A x = Ret A' /\ binv (bn b) (fun y => un y && negb (y =? x)) (get2 A').
Proof.
  intros W Hx H. unfold bit_mark1. rewrite (H 0 x) by (rewrite ?lev_0; lia). cbn [bind]. rewrite blk_0.
  destruct (un x) eqn:E.
  - change (1 =? 0) with false. cbv iota.
    pose proof (climb_ok b un x W E Hx (Z.to_nat (bit_length (bn b))) (set2 A 0 x 0) 0) as C. rewrite home_0 in C.
    apply C.
    + lia.
    + rewrite lev_0. lia.
    + pose proof (bit_length_nonneg (bn b)). lia.
    + intros k j Hk Hj. rewrite get2_set2. destruct (Z.eqb_spec k 0) as [->|Hk0].
      * cbn [andb Z.leb]. rewrite blk_remove by (assumption || lia). rewrite home_0.
        change (0 <=? 0) with true. cbv iota. destruct (Z.eqb_spec j x) as [->|]; [rewrite blk_0, E; reflexivity|].
        apply H; assumption.
      * cbn [andb]. destruct (Z.leb_spec k 0); [lia|]. apply H; assumption.
  - change (0 =? 0) with true. cbv iota. exists A. split; [reflexivity|].
    apply (binv_ext (bn b) un); [|destruct W; lia|exact H].
    intros y Hy. destruct (Z.eqb_spec y x); [subst; rewrite E; reflexivity|]. symmetry. apply andb_true_r.
Qed.

(** Marking a list of positions, for any structure with a per-position lemma. *)
Lemma marks_ok {S} (R : (Z -> bool) -> S -> Prop) (f : S -> Z -> outcome S) n xs :
  (forall un A x, 1 <= x <= n -> R un A -> exists A', f A x = Ret A' /\ R (fun y => un y && negb (y =? x)) A') ->
  (forall un un' A, (forall x, 1 <= x <= n -> un x = un' x) -> R un A -> R un' A) ->
  (forall x, In x xs -> 1 <= x <= n) ->
  forall un A, R un A -> exists A', foldM f xs A = Ret A' /\
    R (fun y => un y && negb (existsb (Z.eqb y) xs)) A'.
Proof.
  intros H1 H2. induction xs as [|x xs IH]; intros Hxs un A HR.
  - exists A. split; [reflexivity|]. apply (H2 un); [|exact HR]. intros y _. cbn. symmetry. apply andb_true_r.
  - cbn [foldM]. destruct (H1 un A x (Hxs x (or_introl eq_refl)) HR) as (A1 & -> & R1). cbn [bind].
    destruct (IH (fun y Hy => Hxs y (or_intror Hy)) _ A1 R1) as (A' & E & R2). exists A'. split; [exact E|].
    eapply H2; [|exact R2]. intros y _. cbn [existsb]. rewrite negb_orb, andb_assoc. reflexivity.
Qed.

Lemma step_marked p n y : 1 <= p -> 1 <= y <= n ->
  existsb (Z.eqb y) (zrange_step p (n + 1) p) = (y mod p =? 0).
Proof.
  intros Hp Hy. apply eq_true_iff_eq. rewrite existsb_exists, Z.eqb_eq. split.
  - intros (x & Hx & E). apply Z.eqb_eq in E. subst x. apply zrange_step_In in Hx; [|lia].
    destruct Hx as [_ [k Hk]]. replace y with ((k + 1) * p) by lia. apply Z.mod_mul. lia.
  - intros E. exists y. rewrite Z.eqb_refl. split; [|reflexivity]. apply zrange_step_In; [lia|].
    apply Z.mod_divide in E; [|lia]. destruct E as [k Hk]. assert (1 <= k) by nia. split; [nia|]. exists (k - 1). lia.
Qed.

Lemma bit_mark_ok b un p : bwf b -> 1 <= p -> binv (bn b) un (get2 (bA b)) ->
  exists b', bit_mark b p = Ret b' /\ bwf b' /\ bn b' = bn b /\
    binv (bn b') (fun y => un y && negb (y mod p =? 0)) (get2 (bA b')).
Proof.
  intros W Hp H. unfold bit_mark. destruct (Z.eqb_spec p 0); [lia|]. destruct (Z.ltb_spec 0 p); [|lia].
  destruct (marks_ok (fun un A => binv (bn b) un (get2 A)) (bit_mark1 b) (bn b) (zrange_step p (bn b + 1) p)) with (un := un) (A := bA b) as (A' & E & H').
  - intros. apply mark1_ok; assumption.
  - intros un0 un' A E. apply binv_ext; [exact E|destruct W; lia].
  - intros x Hx. apply zrange_step_In in Hx; lia.
  - exact H.
  - rewrite E. cbn [bind]. eexists. split; [reflexivity|]. split; [exact W|]. split; [reflexivity|]. cbn [bn bA].
    eapply binv_ext; [|destruct W; lia|exact H']. intros y Hy. cbv beta. rewrite step_marked by lia. reflexivity.
Qed.

(** Construction: all levels below [i] are filled with the full counts. *)
Definition full : Z -> bool := fun _ => true.

Definition linv (n k : Z) (st : (Z -> Z -> option Z) * (Z -> Z -> option (Z * Z))) : Prop :=
  (forall i j, 0 <= i < k -> 1 <= j <= lev n i -> get2 (fst st) i j = Ret (blk full i j)) /\
  (forall i j, 0 <= i -> 1 <= j ->
     snd st i j = if (i + 1 <? k) && ((j + 1) / 2 <=? lev n (i + 1)) then Some (i + 1, (j + 1) / 2) else None).

Lemma fill_ok n k st : 1 <= k -> 0 <= n -> linv n k st ->
  exists st', foldM (bit_fill k) (zrange 1 (lev n k + 1)) st = Ret st' /\ linv n (k + 1) st'.
Proof.
  intros Hk Hn [H1 H2].
  set (I := fun (pre : list Z) (st' : (Z -> Z -> option Z) * (Z -> Z -> option (Z * Z))) =>
    let m := Z.of_nat (length pre) in
    (forall i j, 0 <= i < k -> 1 <= j <= lev n i -> get2 (fst st') i j = Ret (blk full i j)) /\
    (forall j, 1 <= j <= m -> get2 (fst st') k j = Ret (blk full k j)) /\
    (forall i j, 0 <= i -> 1 <= j -> i <> k - 1 -> snd st' i j = snd st i j) /\
    (forall j, 1 <= j -> snd st' (k - 1) j = if (j + 1) / 2 <=? m then Some (k, (j + 1) / 2) else None)).
  destruct (foldM_inv (bit_fill k) I (zrange 1 (lev n k + 1)) st) as (st' & E & (J1 & J2 & J3 & J4)).
  - unfold I. cbv zeta. cbn [length]. change (Z.of_nat 0) with 0. split; [exact H1|]. split; [intros; lia|]. split; [auto|].
    intros j Hj. rewrite H2 by lia. replace (k - 1 + 1) with k by lia. rewrite Z.ltb_irrefl. cbn [andb].
    assert (1 <= (j + 1) / 2) by (apply Z.div_le_lower_bound; lia).
    destruct (Z.leb_spec ((j + 1) / 2) 0) as [X|X]; [lia|reflexivity].
  - intros pre x post [A P] E (J1 & J2 & J3 & J4). cbn [fst snd] in *.
    assert (Hx : x = Z.of_nat (length pre) + 1 /\ 1 <= x <= lev n k).
    { assert (Hin : In x (zrange 1 (lev n k + 1))) by (rewrite E; apply in_or_app; right; left; reflexivity).
      apply zrange_In in Hin. split; [|lia].
      assert (L : (length pre < Z.to_nat (lev n k + 1 - 1))%nat).
      { rewrite <- zrange_length, E, app_length. cbn [length]. lia. }
      pose proof (zrange_nth 1 (lev n k + 1) (length pre) 0 L) as Q. rewrite E, app_nth2, Nat.sub_diag in Q by lia.
      cbn [nth] in Q. lia. }
    destruct Hx as [Ex Hx].
    assert (Hlev : 2 * lev n k <= lev n (k - 1)).
    { replace k with (k - 1 + 1) at 1 by lia. rewrite lev_succ by lia. apply Z.mul_div_le. lia. }
    unfold bit_fill. rewrite !J1 by lia. cbn [bind]. eexists. split; [reflexivity|].
    rewrite <- blk_succ by lia. replace (k - 1 + 1) with k by lia.
    unfold I. rewrite app_length. cbn [length]. replace (Z.of_nat (length pre + 1)) with x by lia. cbn [fst snd].
    split; [|split; [|split]].
    + intros i j Hi Hj. rewrite get2_set2. destruct (Z.eqb_spec i k); [lia|]. cbn [andb]. auto.
    + intros j Hj. rewrite get2_set2. rewrite Z.eqb_refl. cbn [andb]. destruct (Z.eqb_spec j x); [subst; reflexivity|].
      apply J2. lia.
    + intros i j Hi Hj Hik. unfold set2. destruct (Z.eqb_spec i (k - 1)); [lia|]. cbn [andb]. auto.
    + intros j Hj. unfold set2. rewrite Z.eqb_refl. cbn [andb].
      destruct (Z.eqb_spec j (2 * x)) as [->|N1].
      { replace ((2 * x + 1) / 2) with x by (apply Z.div_unique with 1; lia). rewrite Z.leb_refl. reflexivity. }
      destruct (Z.eqb_spec j (2 * x - 1)) as [->|N2].
      { replace ((2 * x - 1 + 1) / 2) with x by (apply Z.div_unique with 0; lia). rewrite Z.leb_refl. reflexivity. }
      rewrite J4 by exact Hj. pose proof (Z.div_mod (j + 1) 2). pose proof (Z.mod_pos_bound (j + 1) 2).
      destruct (Z.leb_spec ((j + 1) / 2) (Z.of_nat (length pre))), (Z.leb_spec ((j + 1) / 2) x); try reflexivity; lia.
  - exists st'. split; [exact E|]. rewrite zrange_length in *. 
    assert (Hl : 0 <= lev n k) by (apply Z.div_pos; [lia|apply Z.pow_pos_nonneg; lia]).
    replace (Z.of_nat (Z.to_nat (lev n k + 1 - 1))) with (lev n k) in * by lia.
    split.
    + intros i j Hi Hj. destruct (Z.eq_dec i k); [subst; auto|]. apply J1; lia.
    + intros i j Hi Hj. destruct (Z.eq_dec i (k - 1)) as [->|Hik].
      * rewrite J4 by exact Hj. replace (k - 1 + 1) with k by lia. destruct (Z.ltb_spec k (k + 1)); [|lia]. reflexivity.
      * rewrite J3, H2 by assumption. destruct (Z.ltb_spec (i + 1) k), (Z.ltb_spec (i + 1) (k + 1)); try reflexivity; lia.
Qed.

Lemma levels_ok n : 0 <= n -> forall fuel k st, 1 <= k -> bit_length n <= k + Z.of_nat fuel -> linv n k st ->
  exists A P, bit_levels fuel n k st = Ret (A, P) /\ bwf (Bit A n P) /\ binv n full (get2 A).
Proof.
  intros Hn. induction fuel as [|f IH]; intros k st Hk Hf H; cbn [bit_levels]; rewrite lev_shift by lia;
    destruct (Z.eqb_spec (lev n k) 0) as [E|E].
  1, 3: destruct st as [A P]; exists A, P; split; [reflexivity|]; destruct H as [H1 H2]; cbn [fst snd] in *;
    assert (Z0 : forall i, k <= i -> lev n i = 0) by
      (intros i Hi; unfold lev in *; apply Z.div_small; split; [lia|];
       apply Z.div_small_iff in E; [|apply Z.pow_nonzero; lia];
       assert (2 ^ k <= 2 ^ i) by (apply Z.pow_le_mono_r; lia); pose proof (Z.pow_pos_nonneg 2 k); lia);
    split;
    [split; [exact Hn|]; cbn [bn bparent]; intros i j Hi Hj; rewrite H2 by assumption;
     destruct (Z.ltb_spec (i + 1) k); [reflexivity|]; cbn [andb];
     rewrite Z0 by lia; assert (1 <= (j + 1) / 2) by (apply Z.div_le_lower_bound; lia);
     destruct (Z.leb_spec ((j + 1) / 2) 0); [lia|reflexivity]
    |intros i j Hi Hj; apply H1; [|exact Hj]; split; [exact Hi|]; destruct (Z_lt_ge_dec i k); [assumption|];
     rewrite Z0 in Hj by lia; lia].
  - exfalso. apply E. apply lev_zero; lia.
  - destruct (fill_ok n k st Hk Hn H) as (st' & -> & H'). cbn [bind]. apply IH; [lia|lia|exact H'].
Qed.

Lemma fold_set2_get : forall l (A : Z -> Z -> option Z) i j,
  get2 (fold_left (fun A j => set2 A 0 j 1) l A) i j =
  if (i =? 0) && existsb (Z.eqb j) l then Ret 1 else get2 A i j.
Proof.
  induction l as [|x l IH]; intros A i j; cbn [fold_left existsb].
  - rewrite andb_false_r. reflexivity.
  - rewrite IH, get2_set2. destruct (i =? 0), (j =? x), (existsb (Z.eqb j) l); reflexivity.
Qed.

Lemma bit_init_ok n : 0 <= n -> exists b, bit_init n = Ret b /\ bn b = n /\ bwf b /\ binv n full (get2 (bA b)).
Proof.
  intros Hn. unfold bit_init.
  destruct (levels_ok n Hn (Z.to_nat (bit_length n)) 1
    (fold_left (fun A j => set2 A 0 j 1) (zrange 1 (n + 1)) (fun _ _ => None), fun _ _ => None)) as (A & P & E & W & H).
  - lia.
  - pose proof (bit_length_nonneg n). lia.
  - split; cbn [fst snd].
    + intros i j Hi Hj. assert (i = 0) by lia. subst i. rewrite lev_0 in Hj.
      rewrite fold_set2_get. change (0 =? 0) with true. cbn [andb].
      assert (X : existsb (Z.eqb j) (zrange 1 (n + 1)) = true).
      { apply existsb_exists. exists j. rewrite Z.eqb_refl, zrange_In. split; [lia|reflexivity]. }
      rewrite X, blk_0. reflexivity.
    + intros i j Hi Hj. destruct (Z.ltb_spec (i + 1) 1); [lia|reflexivity].
  - rewrite E. cbn [bind]. eexists. split; [reflexivity|]. auto.
Qed.

(** ** BITSieveArray *)
Definition rowok (n : Z) (un : Z -> bool) (i : Z) (row : list Z) : Prop :=
  Z.of_nat (length row) = lev n i + 1 /\ forall j, 1 <= j <= lev n i -> pyget row j = Ret (blk un i j).

Fixpoint lvls (n : Z) (un : Z -> bool) (i : Z) (rows : list (list Z)) : Prop :=
  match rows with
  | [] => True
  | row :: rest => rowok n un i row /\ lvls n un (i + 1) rest
  end.

Definition rowsok (n : Z) (un : Z -> bool) (rows : list (list Z)) : Prop :=
  lvls n un 0 rows /\ lev n (Z.of_nat (length rows)) = 0.

Lemma lvls_snoc n un row : forall rows i, lvls n un i rows -> rowok n un (i + Z.of_nat (length rows)) row ->
  lvls n un i (rows ++ [row]).
Proof.
  induction rows as [|r rows IH]; intros i H Hr; cbn [lvls app length] in *.
  - rewrite Z.add_0_r in Hr. auto.
  - destruct H as [H1 H2]. split; [exact H1|]. apply IH; [exact H2|].
    replace (i + 1 + Z.of_nat (length rows)) with (i + Z.of_nat (S (length rows))) by lia. exact Hr.
Qed.

Lemma lvls_nth n un : forall rows i k, lvls n un i rows -> 0 <= k < Z.of_nat (length rows) ->
  exists row, pyget rows k = Ret row /\ rowok n un (i + k) row.
Proof.
  induction rows as [|r rows IH]; intros i k H Hk; cbn [lvls length] in *; [lia|].
  destruct H as [H1 H2]. rewrite (pyget_nth _ k []) by (cbn [length]; lia).
  destruct (Z.eq_dec k 0) as [->|Hk0].
  - exists r. rewrite Z.add_0_r. auto.
  - destruct (IH (i + 1) (k - 1) H2) as (row & E & Hr); [lia|]. rewrite (pyget_nth _ _ []) in E by lia.
    exists row. replace (Z.to_nat k) with (S (Z.to_nat (k - 1))) by lia. cbn [nth].
    replace (i + k) with (i + 1 + (k - 1)) by lia. auto.
Qed.

Lemma lev_mono0 n i k : 0 <= n -> 0 <= i <= k -> lev n i = 0 -> lev n k = 0.
Proof.
  intros Hn Hi E. unfold lev in *. apply Z.div_small_iff in E; [|apply Z.pow_nonzero; lia].
  assert (2 ^ i <= 2 ^ k) by (apply Z.pow_le_mono_r; lia). pose proof (Z.pow_pos_nonneg 2 i).
  apply Z.div_small. lia.
Qed.

Lemma rowsok_binv n un rows : 0 <= n -> rowsok n un rows -> binv n un (aget rows).
Proof.
  intros Hn [H1 H2] i j Hi Hj. unfold aget.
  destruct (Z_lt_ge_dec i (Z.of_nat (length rows))) as [L|L].
  - destruct (lvls_nth n un rows 0 i H1) as (row & -> & R); [lia|]. cbn [bind]. apply R, Hj.
  - rewrite (lev_mono0 n (Z.of_nat (length rows)) i Hn) in Hj; [lia|lia|exact H2].
Qed.

Lemma lvls_out n un x : un x = true -> forall rows i, 0 <= i -> lev n i < home x i -> lvls n un i rows ->
  lvls n (fun y => un y && negb (y =? x)) i rows.
Proof.
  intros Hx. induction rows as [|r rows IH]; intros i Hi Hh H; cbn [lvls] in *; [exact I|].
  destruct H as [[H1 H2] H3]. split.
  - split; [exact H1|]. intros j Hj. rewrite H2, blk_remove by (assumption || lia).
    destruct (Z.eqb_spec j (home x i)); [lia|reflexivity].
  - apply IH; [lia| |exact H3]. apply home_out; assumption.
Qed.

Lemma amark1_ok n un x : un x = true -> 1 <= x -> forall rows i, 0 <= i -> lvls n un i rows ->
  exists rows', amark1 rows (home x i) = Ret rows' /\ length rows' = length rows /\
    lvls n (fun y => un y && negb (y =? x)) i rows'.
Proof.
  intros Hx H1x. induction rows as [|r rows IH]; intros i Hi H; cbn [amark1].
  - exists []. repeat split.
  - cbn [lvls] in H. pose proof H as [[H1 H2] H3]. pose proof (home_pos x i H1x Hi).
    destruct (Z.leb_spec (Z.of_nat (length r)) (home x i)).
    + exists (r :: rows). split; [reflexivity|]. split; [reflexivity|].
      apply (lvls_out n un x Hx (r :: rows)); [exact Hi|lia|exact H].
    + rewrite H2 by lia. cbn [bind]. rewrite pyset_upd by lia. cbn [bind].
      rewrite <- home_succ by exact Hi. destruct (IH (i + 1)) as (rows' & -> & L & R); [lia|exact H3|]. cbn [bind].
      eexists. split; [reflexivity|]. cbn [length]. split; [lia|]. cbn [lvls]. split; [|exact R].
      assert (Lr : length (upd r (Z.to_nat (home x i)) (blk un i (home x i) - 1)) = length r) by apply upd_length.
      split; [lia|]. intros j Hj. rewrite (pyget_nth _ j 0) by lia. rewrite upd_nth by lia.
      rewrite blk_remove by (assumption || lia). destruct (Z.eqb_spec j (home x i)) as [->|N].
      * rewrite Nat.eqb_refl. reflexivity.
      * destruct (Nat.eqb_spec (Z.to_nat j) (Z.to_nat (home x i))); [lia|].
        rewrite <- H2 by lia. symmetry. apply pyget_nth. lia.
Qed.

Lemma lvls_ext n un un' : 0 <= n -> (forall x, 1 <= x <= n -> un x = un' x) -> forall rows i, 0 <= i ->
  lvls n un i rows -> lvls n un' i rows.
Proof.
  intros Hn E. induction rows as [|r rows IH]; intros i Hi H; cbn [lvls] in *; [exact I|].
  destruct H as [[H1 H2] H3]. split; [|apply IH; [lia|exact H3]]. split; [exact H1|].
  intros j Hj. rewrite H2 by exact Hj. f_equal. apply cnt_ext. intros x Hx. apply E.
  pose proof (Z.pow_pos_nonneg 2 i ltac:(lia) Hi) as Hp.
  assert (2 ^ i * lev n i <= n) by (apply Z.mul_div_le; lia). nia.
Qed.

Definition awf (b : bita) (un : Z -> bool) : Prop := 0 <= an b /\ rowsok (an b) un (aA b).

Lemma bita_mark_ok b un p : awf b un -> 1 <= p ->
  exists b', bita_mark b p = Ret b' /\ an b' = an b /\ awf b' (fun y => un y && negb (y mod p =? 0)).
Proof.
  intros [Hn H] Hp. unfold bita_mark. destruct (Z.eqb_spec p 0); [lia|]. destruct (Z.ltb_spec 0 p); [|lia].
  destruct (marks_ok (fun un A => rowsok (an b) un A)
    (fun A x => do v <- aget A 0 x; if v =? 0 then Ret A else amark1 A x) (an b) (zrange_step p (an b + 1) p))
    with (un := un) (A := aA b) as (A' & E & H').
  - intros un0 A x Hx R. pose proof (rowsok_binv _ _ _ Hn R) as B. rewrite (B 0 x) by (rewrite ?lev_0; lia).
    cbn [bind]. rewrite blk_0. destruct (un0 x) eqn:Ex.
    + change (1 =? 0) with false. cbv iota. destruct R as [R1 R2].
      destruct (amark1_ok (an b) un0 x Ex ltac:(lia) A 0 ltac:(lia) R1) as (A' & E & L & R'). rewrite home_0 in E.
      exists A'. split; [exact E|]. split; [exact R'|]. rewrite L. exact R2.
    + change (0 =? 0) with true. cbv iota. exists A. split; [reflexivity|]. destruct R as [R1 R2]. split; [|exact R2].
      apply (lvls_ext _ un0); [exact Hn| |lia|exact R1].
      intros y Hy. destruct (Z.eqb_spec y x); [subst; rewrite Ex; reflexivity|]. symmetry. apply andb_true_r.
  - intros un0 un' A E [R1 R2]. split; [|exact R2]. apply (lvls_ext _ un0); [exact Hn|exact E|lia|exact R1].
  - intros x Hx. apply zrange_step_In in Hx; lia.
  - exact H.
  - rewrite E. cbn [bind]. eexists. split; [reflexivity|]. split; [reflexivity|]. split; [exact Hn|]. cbn [an aA].
    destruct H' as [R1 R2]. split; [|exact R2]. eapply lvls_ext; [exact Hn| |lia|exact R1].
    intros y Hy. cbv beta. rewrite step_marked by lia. reflexivity.
Qed.

Lemma arow_ok n i below : 0 <= n -> 0 <= i -> rowok n full i below ->
  exists row, arow below (lev n (i + 1)) = Ret row /\ rowok n full (i + 1) row.
Proof.
  intros Hn Hi [H1 H2]. unfold arow. set (k := lev n (i + 1)).
  assert (Hk : 0 <= k /\ 2 * k <= lev n i).
  { unfold k. rewrite lev_succ by lia. split; [|apply Z.mul_div_le; lia].
    apply Z.div_pos; [|lia]. apply Z.div_pos; [lia|]. apply Z.pow_pos_nonneg; lia. }
  rewrite (foldM_ret _ (fun acc j => acc ++ [blk full (i + 1) j])).
  2: { intros acc j Hj. apply zrange_In in Hj. rewrite !H2 by lia. cbn [bind]. rewrite <- blk_succ by lia. reflexivity. }
  cbn [bind]. eexists. split; [reflexivity|].
  assert (F : forall l acc, fold_left (fun acc j => acc ++ [blk full (i + 1) j]) l acc = acc ++ map (blk full (i + 1)) l).
  { induction l as [|a l IH]; intros acc; cbn [fold_left map]; [symmetry; apply app_nil_r|]. rewrite IH, <- app_assoc. reflexivity. }
  rewrite F. cbn [app]. fold k. unfold rowok. cbn [length]. rewrite map_length, zrange_length. fold k.
  split; [lia|]. intros j Hj. rewrite (pyget_nth _ j 0) by (cbn [length]; rewrite map_length, zrange_length; lia).
  replace (Z.to_nat j) with (S (Z.to_nat (j - 1))) by lia. cbn [nth].
  rewrite nth_indep with (d' := blk full (i + 1) 0) by (rewrite map_length, zrange_length; lia).
  rewrite map_nth, zrange_nth by lia. do 2 f_equal. lia.
Qed.

Lemma abuild_ok n : 0 <= n -> forall fuel A, (1 <= length A)%nat -> bit_length n <= Z.of_nat (length A) + Z.of_nat fuel ->
  lvls n full 0 A -> exists A', abuild fuel n (Z.of_nat (length A)) A = Ret A' /\ rowsok n full A'.
Proof.
  intros Hn. induction fuel as [|f IH]; intros A HA Hf H; cbn [abuild]; rewrite lev_shift by lia;
    destruct (Z.eqb_spec (lev n (Z.of_nat (length A))) 0) as [E|E].
  1, 3: exists A; split; [reflexivity|split; assumption].
  - exfalso. apply E, lev_zero; lia.
  - destruct (lvls_nth n full A 0 (Z.of_nat (length A) - 1) H) as (below & -> & Rb); [lia|]. cbn [bind].
    destruct (arow_ok n (Z.of_nat (length A) - 1) below Hn) as (row & Er & Rr); [lia|exact Rb|].
    replace (Z.of_nat (length A) - 1 + 1) with (Z.of_nat (length A)) in * by lia. rewrite Er. cbn [bind].
    destruct (IH (A ++ [row])) as (A' & E' & R').
    + rewrite app_length. lia.
    + rewrite app_length. cbn [length]. lia.
    + apply lvls_snoc; [exact H|]. rewrite Z.add_0_l. exact Rr.
    + rewrite app_length in E'. cbn [length] in E'. replace (Z.of_nat (length A + 1)) with (Z.of_nat (length A) + 1) in E' by lia.
      exists A'. split; assumption.
Qed.

Lemma bita_init_ok n : 0 <= n -> exists b, bita_init n = Ret b /\ an b = n /\ awf b full.
Proof.
  intros Hn. unfold bita_init. rewrite pyset_upd by (rewrite repeat_length; lia). cbn [bind].
  set (A0 := upd (repeat 1 (Z.to_nat (n + 1))) (Z.to_nat 0) 0).
  assert (L0 : length A0 = Z.to_nat (n + 1)) by (unfold A0; rewrite upd_length, repeat_length; reflexivity).
  destruct (abuild_ok n Hn (Z.to_nat (bit_length n)) [A0]) as (A & E & R).
  - cbn. lia.
  - pose proof (bit_length_nonneg n). lia.
  - cbn [lvls]. split; [|exact I]. split; [rewrite lev_0; lia|]. rewrite lev_0. intros j Hj.
    rewrite (pyget_nth _ j 0) by lia. rewrite blk_0. unfold A0. rewrite upd_nth by (rewrite repeat_length; lia).
    destruct (Nat.eqb_spec (Z.to_nat j) (Z.to_nat 0)); [lia|].
    rewrite (nth_indep _ 0 1) by (rewrite repeat_length; lia). rewrite nth_repeat. reflexivity.
  - change (Z.of_nat (length [A0])) with 1 in E. rewrite E. cbn [bind]. eexists. split; [reflexivity|].
    split; [reflexivity|]. split; [exact Hn|exact R].
Qed.
