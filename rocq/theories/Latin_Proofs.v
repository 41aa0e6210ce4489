(** * Latin squares by exact cover *)
From Coq Require Import ZArith List Bool Lia Sorting.Sorted Sorting.Permutation.
From Verif Require Import Base Lists2 Count Gen Cover_Model Cover_Spec Cover_Proofs Cover_Proofs2 Cover_Proofs3 Tiling_Proofs Tiling_Proofs3 Tiling_Proofs4
  Latin_Spec Latin_Model.
Import ListNotations.
Open Scope Z_scope.

Lemma nth_concat {A} (L : list (list A)) w d : (forall r, In r L -> length r = w) ->
  forall r c, (r < length L)%nat -> (c < w)%nat -> nth (r * w + c) (concat L) d = nth c (nth r L []) d.
Proof.
  induction L as [|x L IH]; intros H r c Hr Hc; [cbn [length] in Hr; lia|]. assert (Ex : length x = w) by (apply H; left; reflexivity).
  cbn [concat]. destruct r as [|r]; cbn [nth].
  - rewrite app_nth1 by lia. reflexivity.
  - rewrite app_nth2 by lia. replace (S r * w + c - length x)%nat with (r * w + c)%nat by lia. apply IH; [intros y Hy; apply H; right; exact Hy|cbn [length] in Hr; lia|exact Hc].
Qed.

Lemma code_bound n a b : 0 <= a < n -> 0 <= b < n -> 0 <= a * n + b < n * n.
Proof. intros Ha Hb. nia. Qed.

Lemma code_inj n a b c d : 0 <= b < n -> 0 <= d < n -> a * n + b = c * n + d -> a = c /\ b = d.
Proof. intros Hb Hd E. assert (H : a = c) by nia. split; [exact H|]. subst. lia. Qed.

Lemma code_split n x : 0 < n -> 0 <= x < n * n -> exists a b, x = a * n + b /\ 0 <= a < n /\ 0 <= b < n.
Proof.
  intros Hn Hx. exists (x / n), (x mod n). pose proof (Z.div_mod x n ltac:(lia)) as E. pose proof (Z.mod_pos_bound x n Hn) as M.
  split; [lia|]. split; [|exact M]. split; [apply Z.div_pos; lia|apply Z.div_lt_upper_bound; lia].
Qed.

Lemma perm_bis (l m : list Z) : NoDup l -> length l = length m -> incl l m -> Permutation l m.
Proof. intros N E H. apply NoDup_Permutation_bis; [exact N|lia|exact H]. Qed.

Lemma map_flat_map {A B C} (f : B -> C) (g : A -> list B) l : map f (flat_map g l) = flat_map (fun x => map f (g x)) l.
Proof. induction l as [|x l IH]; [reflexivity|]. cbn [flat_map]. rewrite map_app, IH. reflexivity. Qed.

Lemma NoDup_flat_map_disj {A B} (f : A -> list B) l : NoDup l -> (forall x, In x l -> NoDup (f x)) ->
  (forall x y z, In z (f x) -> In z (f y) -> x = y) -> NoDup (flat_map f l).
Proof.
  induction 1 as [|x l Hx N IH]; intros H1 H2; [constructor|]. cbn [flat_map]. apply NoDup_app_intro.
  - apply H1. left. reflexivity.
  - apply IH; [|exact H2]. intros y Hy. apply H1. right. exact Hy.
  - intros z Hz Hz'. apply in_flat_map in Hz' as (y & Hy & Hz'). apply Hx. rewrite (H2 x y z Hz Hz'). exact Hy.
Qed.

Section Latin.
  Context (n : Z).
  Hypothesis Hn : 1 <= n.

  Definition litems : list (Z * Z * Z) :=
    flat_map (fun p => flat_map (fun i => map (fun j => (p, i, j)) (zrange 0 n)) (zrange 0 n)) (zrange 0 n).

  Definition vec3 (x : Z * Z * Z) : Z := let '(p, i, j) := x in latin_int n p i j.

  Lemma latin_ints_vec : latin_square_ints n = map vec3 litems.
  Proof using Hn.
    unfold latin_square_ints, litems. rewrite map_flat_map. apply flat_map_ext. intros p. rewrite map_flat_map. apply flat_map_ext. intros i.
    rewrite map_map. reflexivity.
  Qed.

  Lemma litems_In p i j : In (p, i, j) litems <-> 0 <= p < n /\ 0 <= i < n /\ 0 <= j < n.
  Proof using Hn.
    unfold litems. rewrite in_flat_map. split.
    - intros (p' & Hp & H). apply in_flat_map in H as (i' & Hi & H). apply in_map_iff in H as (j' & E & Hj). injection E as -> -> ->.
      rewrite zrange_In in *. auto.
    - intros (Hp & Hi & Hj). exists p. split; [apply zrange_In, Hp|]. apply in_flat_map. exists i. split; [apply zrange_In, Hi|].
      apply in_map_iff. exists j. split; [reflexivity|apply zrange_In, Hj].
  Qed.

  Lemma litems_NoDup : NoDup litems.
  Proof using Hn.
    unfold litems. apply NoDup_flat_map_disj; [apply zrange_NoDup| |].
    - intros p _. apply NoDup_flat_map_disj; [apply zrange_NoDup| |].
      + intros i _. apply NoDup_map_inj; [apply zrange_NoDup|]. intros x y _ _ E. injection E. auto.
      + intros i i' x Hx Hy. apply in_map_iff in Hx as (j & <- & _). apply in_map_iff in Hy as (j' & E & _). injection E. auto.
    - intros p p' x Hx Hy. apply in_flat_map in Hx as (i & _ & Hx). apply in_map_iff in Hx as (j & <- & _).
      apply in_flat_map in Hy as (i' & _ & Hy). apply in_map_iff in Hy as (t & E & _). injection E. auto.
  Qed.

  (** ** The bits of one integer *)
  Lemma block_rows i j r : In r (latin_block n i j) -> length r = Z.to_nat n.
  Proof using Hn.
    unfold latin_block. intros H. apply In_nth with (d := []) in H as (k & Hk & <-). rewrite upd_length, repeat_length in Hk.
    destruct (Nat.ltb_spec (Z.to_nat j) (Z.to_nat n)) as [L|L].
    - rewrite upd_nth by (rewrite repeat_length; exact L). destruct (Nat.eqb k (Z.to_nat j)); [rewrite upd_length; apply repeat_length|].
      rewrite (nth_indep _ _ (repeat 0 (Z.to_nat n))) by (rewrite repeat_length; exact Hk). rewrite nth_repeat. apply repeat_length.
    - rewrite upd_out by (rewrite repeat_length; exact L).
      rewrite (nth_indep _ _ (repeat 0 (Z.to_nat n))) by (rewrite repeat_length; exact Hk). rewrite nth_repeat. apply repeat_length.
  Qed.

  Lemma block_len i j : length (latin_block n i j) = Z.to_nat n.
  Proof using Hn. unfold latin_block. rewrite upd_length. apply repeat_length. Qed.

  Lemma block_nth i j r c : 0 <= i < n -> 0 <= j < n -> 0 <= r < n -> 0 <= c < n ->
    nth (Z.to_nat c) (nth (Z.to_nat r) (latin_block n i j) []) 0 = if (r =? j) && (c =? i) then 1 else 0.
  Proof using Hn.
    intros Hi Hj Hr Hc. unfold latin_block. rewrite upd_nth by (rewrite repeat_length; lia).
    destruct (Nat.eqb_spec (Z.to_nat r) (Z.to_nat j)) as [E|E].
    - rewrite upd_nth by (rewrite repeat_length; lia). rewrite nth_repeat. replace (r =? j) with true by lia. cbn [andb].
      destruct (Nat.eqb_spec (Z.to_nat c) (Z.to_nat i)), (Z.eqb_spec c i); try reflexivity; lia.
    - replace (r =? j) with false by lia. cbn [andb].
      rewrite (nth_indep _ _ (repeat 0 (Z.to_nat n))) by (rewrite repeat_length; lia). rewrite nth_repeat. apply nth_repeat.
  Qed.

  Lemma t_nth p i j k : 0 <= p < n -> 0 <= i < n -> 0 <= j < n -> 0 <= k < 2 * n * n ->
    nth (Z.to_nat k) (concat (latin_block n p i ++ latin_block n p j)) 0 = if (k =? i * n + p) || (k =? n * n + (j * n + p)) then 1 else 0.
  Proof using Hn.
    intros Hp Hi Hj Hk. set (L := latin_block n p i ++ latin_block n p j).
    assert (HL : forall r, In r L -> length r = Z.to_nat n) by (intros r Hr; apply in_app_or in Hr as [Hr|Hr]; exact (block_rows _ _ _ Hr)).
    assert (EL : length L = (2 * Z.to_nat n)%nat) by (unfold L; rewrite app_length, !block_len; lia).
    pose proof (Z.div_mod k n ltac:(lia)) as E. pose proof (Z.mod_pos_bound k n ltac:(lia)) as M.
    assert (D : 0 <= k / n < 2 * n) by (split; [apply Z.div_pos; lia|apply Z.div_lt_upper_bound; lia]).
    set (r := k / n) in *. set (c := k mod n) in *.
    replace (Z.to_nat k) with (Z.to_nat r * Z.to_nat n + Z.to_nat c)%nat by (rewrite <- Z2Nat.inj_mul, <- Z2Nat.inj_add by nia; f_equal; lia).
    rewrite (nth_concat L (Z.to_nat n) 0 HL) by lia. unfold L. destruct (Z.lt_ge_cases r n) as [Hr|Hr].
    - rewrite app_nth1 by (rewrite block_len; lia). rewrite block_nth by lia. f_equal.
      destruct (Z.eqb_spec r i) as [E1|E1], (Z.eqb_spec c p) as [E2|E2], (Z.eqb_spec k (i * n + p)) as [E3|E3], (Z.eqb_spec k (n * n + (j * n + p))) as [E4|E4];
        cbn [andb orb]; try reflexivity; exfalso; nia.
    - rewrite app_nth2 by (rewrite block_len; lia). rewrite block_len. replace (Z.to_nat r - Z.to_nat n)%nat with (Z.to_nat (r - n)) by lia.
      rewrite block_nth by lia. f_equal.
      destruct (Z.eqb_spec (r - n) j) as [E1|E1], (Z.eqb_spec c p) as [E2|E2], (Z.eqb_spec k (i * n + p)) as [E3|E3], (Z.eqb_spec k (n * n + (j * n + p))) as [E4|E4];
        cbn [andb orb]; try reflexivity; exfalso; nia.
  Qed.

  Lemma bit2_sum a b : 0 <= a -> 0 <= b -> a <> b -> 2 ^ a + (2 ^ b + 0) = bit2 b a.
  Proof using Hn.
    intros Ha Hb Hab. unfold bit2. rewrite !Z.shiftl_1_l, Z.add_0_r, Z.lor_comm.
    rewrite <- Z.lxor_lor; [apply Z.add_nocarry_lxor|]; apply Z.bits_inj'; intros i Hi;
      rewrite Z.land_spec, !Z.pow2_bits_eqb, Z.testbit_0_l by lia; destruct (Z.eqb_spec a i), (Z.eqb_spec b i); try reflexivity; lia.
  Qed.

  Lemma latin_int_eq p i j : 0 <= p < n -> 0 <= i < n -> 0 <= j < n ->
    latin_int n p i j = Z.lor (Z.shiftl (bit2 (n * n - 1 - (j * n + p)) (2 * (n * n) - 1 - (i * n + p))) (n * n)) (Z.shiftl 1 (n * n - 1 - (j * n + i))).
  Proof using Hn.
    intros Hp Hi Hj. unfold latin_int. pose proof (code_bound n i p Hi Hp) as B1. pose proof (code_bound n j p Hj Hp) as B2.
    assert (E : filter (fun k => negb (nth (Z.to_nat k) (concat (latin_block n p i ++ latin_block n p j)) 0 =? 0)) (zrange 0 (2 * n * n)) = [i * n + p; n * n + (j * n + p)]).
    { apply (sorted_ext Z.lt Z.lt_irrefl Z.lt_trans).
      - apply filter_sorted, zrange_sorted.
      - repeat constructor; lia.
      - apply NoDup_same_perm.
        + apply NoDup_filter, zrange_NoDup.
        + repeat constructor; cbn [In]; intuition lia.
        + intros x. rewrite filter_In, zrange_In. cbn [In]. split.
          * intros (H1 & H2). rewrite t_nth in H2 by assumption. destruct (Z.eqb_spec x (i * n + p)), (Z.eqb_spec x (n * n + (j * n + p))); auto; discriminate.
          * intros H. assert (R : 0 <= x < 2 * n * n) by (destruct H as [<-|[<-|[]]]; lia). split; [exact R|]. rewrite t_nth by assumption.
            destruct H as [<-|[<-|[]]]; rewrite Z.eqb_refl; cbn [orb]; try rewrite orb_true_r; reflexivity. }
    rewrite E. cbn [map]. change (zsum [?a; ?b]) with (a + (b + 0)). unfold zsum. cbn [fold_right].
    rewrite bit2_sum by lia. f_equal; [f_equal; f_equal; ring|f_equal; ring].
  Qed.

  Notation N2 := (n * n).
  Definition cbit (x : Z * Z * Z) : Z := let '(p, i, j) := x in N2 - 1 - (j * n + i).
  Definition rbit (x : Z * Z * Z) : Z := let '(p, i, j) := x in 2 * N2 - 1 - (j * n + p).
  Definition lbit (x : Z * Z * Z) : Z := let '(p, i, j) := x in 3 * N2 - 1 - (i * n + p).

  Lemma bit_bounds x : In x litems -> 0 <= cbit x < N2 /\ N2 <= rbit x < 2 * N2 /\ 2 * N2 <= lbit x < 3 * N2.
  Proof using Hn.
    destruct x as ((p, i), j). intros H. apply litems_In in H as (Hp & Hi & Hj). unfold cbit, rbit, lbit.
    pose proof (code_bound n j i Hj Hi). pose proof (code_bound n j p Hj Hp). pose proof (code_bound n i p Hi Hp). lia.
  Qed.

  Lemma vec3_bit x b : In x litems -> 0 <= b -> Z.testbit (vec3 x) b = true <-> b = cbit x \/ b = rbit x \/ b = lbit x.
  Proof using Hn.
    intros H Hb. pose proof (bit_bounds x H) as B. destruct x as ((p, i), j). apply litems_In in H as (Hp & Hi & Hj). unfold cbit, rbit, lbit in *. unfold vec3.
    rewrite latin_int_eq by assumption. rewrite Z.lor_spec, Z.shiftl_1_l, Z.pow2_bits_eqb, orb_true_iff, Z.eqb_eq by lia.
    rewrite Z.shiftl_spec by lia. destruct (Z.lt_ge_cases b N2) as [L|L].
    - rewrite Z.testbit_neg_r by lia. intuition (discriminate || lia).
    - rewrite bit2_spec by lia. rewrite orb_true_iff, !Z.eqb_eq. intuition lia.
  Qed.

  Lemma same_cell x y : In x litems -> In y litems -> cbit x = cbit y -> snd x = snd y /\ snd (fst x) = snd (fst y).
  Proof using Hn.
    destruct x as ((p, i), j), y as ((p', i'), j'). intros H1 H2 E. apply litems_In in H1 as (_ & Hi & _). apply litems_In in H2 as (_ & Hi' & _).
    unfold cbit in E. cbn [fst snd]. apply (code_inj n j i j' i'); [assumption..|lia].
  Qed.
  Lemma same_row x y : In x litems -> In y litems -> rbit x = rbit y -> snd x = snd y /\ fst (fst x) = fst (fst y).
  Proof using Hn.
    destruct x as ((p, i), j), y as ((p', i'), j'). intros H1 H2 E. apply litems_In in H1 as (Hp & _). apply litems_In in H2 as (Hp' & _).
    unfold rbit in E. cbn [fst snd]. apply (code_inj n j p j' p'); [assumption..|lia].
  Qed.
  Lemma same_col x y : In x litems -> In y litems -> lbit x = lbit y -> snd (fst x) = snd (fst y) /\ fst (fst x) = fst (fst y).
  Proof using Hn.
    destruct x as ((p, i), j), y as ((p', i'), j'). intros H1 H2 E. apply litems_In in H1 as (Hp & _). apply litems_In in H2 as (Hp' & _).
    unfold lbit in E. cbn [fst snd]. apply (code_inj n i p i' p'); [assumption..|lia].
  Qed.

  Notation ints := (latin_square_ints n).
  Notation val k := (nth k (latin_square_ints n) 0).
  Definition it (k : nat) : Z * Z * Z := nth k litems (0, 0, 0).

  Lemma lints_len : length ints = length litems.
  Proof using Hn. rewrite latin_ints_vec, map_length. reflexivity. Qed.

  Lemma lval k : (k < length ints)%nat -> val k = vec3 (it k) /\ In (it k) litems.
  Proof using Hn.
    intros Hk. rewrite lints_len in Hk. rewrite latin_ints_vec. rewrite (nth_indep _ 0 (vec3 (0, 0, 0))) by (rewrite map_length; exact Hk).
    rewrite map_nth. split; [reflexivity|]. apply nth_In, Hk.
  Qed.

  Lemma lval_bit k b : (k < length ints)%nat -> 0 <= b -> Z.testbit (val k) b = true <-> b = cbit (it k) \/ b = rbit (it k) \/ b = lbit (it k).
  Proof using Hn. intros Hk Hb. destruct (lval k Hk) as (-> & H). apply vec3_bit; assumption. Qed.

  Lemma it_inj k l : (k < length ints)%nat -> (l < length ints)%nat -> it k = it l -> k = l.
  Proof using Hn. rewrite lints_len. intros Hk Hl E. apply (proj1 (NoDup_nth litems (0, 0, 0)) litems_NoDup); assumption. Qed.

  Lemma it_of x : In x litems -> exists k, (k < length ints)%nat /\ it k = x.
  Proof using Hn. intros H. destruct (In_nth litems x (0, 0, 0) H) as (k & Hk & E). exists k. rewrite lints_len. auto. Qed.

  Lemma lval_lowest k : (k < length ints)%nat -> lowest_bit (val k) (cbit (it k)).
  Proof using Hn.
    intros Hk. pose proof (bit_bounds _ (proj2 (lval k Hk))) as B. split; [lia|]. split.
    - apply lval_bit; [exact Hk|lia|]. auto.
    - intros b Hb. destruct (Z.testbit (val k) b) eqn:E; [|reflexivity]. apply lval_bit in E; [|exact Hk|lia]. lia.
  Qed.

  Lemma lints_bounds2 v : In v ints -> 0 < v < 2 ^ (3 * N2).
  Proof using Hn.
    rewrite latin_ints_vec. intros H. apply in_map_iff in H as (x & <- & H). pose proof (bit_bounds x H) as B.
    assert (N0 : 0 <= vec3 x).
    { destruct x as ((p, i), j). pose proof H as H'. apply litems_In in H' as (Hp & Hi & Hj). unfold vec3. rewrite latin_int_eq by assumption. unfold bit2.
      rewrite !Z.lor_nonneg, !Z.shiftl_nonneg, Z.lor_nonneg, !Z.shiftl_nonneg. lia. }
    split.
    - destruct (Z.eq_dec (vec3 x) 0) as [E|E]; [|lia]. exfalso.
      assert (T : Z.testbit (vec3 x) (cbit x) = true) by (apply vec3_bit; [exact H|lia|auto]). rewrite E, Z.testbit_0_l in T. discriminate.
    - apply pow2_above; [|exact N0|lia]. intros b Hb. destruct (Z.testbit (vec3 x) b) eqn:T; [|reflexivity]. apply vec3_bit in T; [|exact H|lia]. lia.
  Qed.

  Lemma latin_width : is_width ints (3 * N2).
  Proof using Hn.
    split; [nia|]. split; [intros v Hv; apply lints_bounds2, Hv|]. intros _.
    assert (H : In (0, 0, 0) litems) by (apply litems_In; lia).
    exists (vec3 (0, 0, 0)). assert (Hv : In (vec3 (0, 0, 0)) ints) by (rewrite latin_ints_vec; apply in_map, H). split; [exact Hv|].
    destruct (Z.le_gt_cases (2 ^ (3 * N2 - 1)) (vec3 (0, 0, 0))) as [L|L]; [exact L|]. exfalso.
    assert (T : Z.testbit (vec3 (0, 0, 0)) (3 * N2 - 1) = true) by (apply vec3_bit; [exact H|nia|right; right; unfold lbit; lia]).
    rewrite (high_bits (3 * N2 - 1)) in T; [discriminate|split; [apply Z.lt_le_incl, lints_bounds2, Hv|exact L]|lia].
  Qed.
End Latin.
