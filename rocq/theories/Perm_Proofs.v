(** * Proofs about the generation of permutations: the array loops *)
From Coq Require Import ZArith List Lia Bool Sorting.Sorted Sorting.Permutation.
From Verif Require Import Base Lists Lists2 Gen Lex Perm_Model.
Import ListNotations.
Open Scope Z_scope.

Notation len l := (Z.of_nat (length l)).

Lemma pyget_mid {A} (p q : list A) a i : i = len p -> pyget (p ++ a :: q) i = Ret a.
Proof.
  intros ->. rewrite (pyget_nth _ _ a) by (rewrite app_length; cbn [length]; lia).
  rewrite Nat2Z.id, nth_middle. reflexivity.
Qed.

Lemma upd_mid {A} (p q : list A) a b : upd (p ++ a :: q) (length p) b = p ++ b :: q.
Proof. induction p as [|x p IH]; cbn; [reflexivity|]. rewrite IH. reflexivity. Qed.

Lemma pyset_mid {A} (p q : list A) a b i : i = len p -> pyset (p ++ a :: q) i b = Ret (p ++ b :: q).
Proof.
  intros ->. rewrite pyset_upd by (rewrite app_length; cbn [length]; lia). rewrite Nat2Z.id, upd_mid. reflexivity.
Qed.

Lemma swap_mid p m q a b i j : i = len p -> j = i + 1 + len m ->
  swap (p ++ a :: m ++ b :: q) i j = Ret (p ++ b :: m ++ a :: q).
Proof.
  intros Hi Hj. unfold swap. rewrite (pyget_mid p (m ++ b :: q)) by exact Hi. cbn [bind].
  replace (p ++ a :: m ++ b :: q) with ((p ++ a :: m) ++ b :: q) by (rewrite <- app_assoc; reflexivity).
  rewrite pyget_mid by (rewrite app_length; cbn [length]; lia). cbn [bind].
  replace ((p ++ a :: m) ++ b :: q) with (p ++ a :: m ++ b :: q) by (rewrite <- app_assoc; reflexivity).
  rewrite pyset_mid by exact Hi. cbn [bind].
  replace (p ++ b :: m ++ b :: q) with ((p ++ b :: m) ++ b :: q) by (rewrite <- app_assoc; reflexivity).
  rewrite pyset_mid by (rewrite app_length; cbn [length]; lia). rewrite <- app_assoc. reflexivity.
Qed.

Lemma rev_loop_ok : forall fuel p m q k l, (length m <= 2 * fuel + 1)%nat -> k = len p -> l = k + len m - 1 ->
  rev_loop fuel (p ++ m ++ q) k l = Ret (p ++ rev m ++ q).
Proof.
  induction fuel as [|f IH]; intros p m q k l Hm Hk Hl; cbn [rev_loop].
  - destruct (Z.ltb_spec k l); [lia|]. destruct m as [|a [|b m]]; cbn [length] in *; try lia; reflexivity.
  - destruct (Z.ltb_spec k l) as [Hkl|Hkl].
    + destruct m as [|a m]; [cbn [length] in *; lia|].
      destruct (exists_last (l := m)) as (m' & b & ->); [intros ->; cbn [length] in *; lia|].
      cbn [length] in *. rewrite app_length in *. cbn [length] in *.
      replace (p ++ (a :: m' ++ [b]) ++ q) with (p ++ a :: m' ++ b :: q)
        by (cbn [app]; rewrite <- (app_assoc m'); reflexivity).
      rewrite swap_mid by lia. cbn [bind].
      replace (p ++ b :: m' ++ a :: q) with ((p ++ [b]) ++ m' ++ (a :: q)) by (rewrite <- app_assoc; reflexivity).
      rewrite IH.
      * rewrite <- app_assoc. cbn [app rev]. rewrite rev_app_distr. cbn [rev app]. rewrite <- app_assoc. reflexivity.
      * lia.
      * rewrite app_length; cbn [length]; lia.
      * lia.
    + destruct m as [|a [|b m]]; cbn [length] in *; try lia; reflexivity.
Qed.

Definition at_ (e : list Z) (i : Z) : Z := nth (Z.to_nat i) e 0.

Lemma pyget_at e i : 0 <= i < len e -> pyget e i = Ret (at_ e i).
Proof. apply pyget_nth. Qed.

Lemma at_app1 p q i : 0 <= i < len p -> at_ (p ++ q) i = at_ p i.
Proof. intros H. unfold at_. apply app_nth1. lia. Qed.

Lemma at_app2 p q i : len p <= i -> at_ (p ++ q) i = at_ q (i - len p).
Proof. intros H. unfold at_. rewrite app_nth2 by lia. f_equal. lia. Qed.

Lemma find_j_ok e j0 : forall fuel j, j0 <= j -> -1 <= j0 -> j + 1 < len e -> (Z.to_nat (j - j0) <= fuel)%nat ->
  (forall i, j0 < i <= j -> at_ e (i + 1) <= at_ e i) -> (0 <= j0 -> at_ e j0 < at_ e (j0 + 1)) ->
  find_j fuel e j = Ret j0.
Proof.
  induction fuel as [|f IH]; intros j H1 H2 H3 H4 H5 H6; cbn [find_j];
    (destruct (Z.leb_spec 0 j) as [Hj|Hj]; [|f_equal; lia]); rewrite !pyget_at by lia; cbn [bind]; rewrite Z.geb_leb.
  - assert (j = j0) by lia. subst j. destruct (Z.leb_spec (at_ e (j0 + 1)) (at_ e j0)); [|reflexivity].
    specialize (H6 Hj). lia.
  - destruct (Z.leb_spec (at_ e (j + 1)) (at_ e j)) as [L|L].
    + assert (j <> j0) by (intros ->; specialize (H6 Hj); lia). apply IH; [lia|lia|lia|lia| |exact H6]. intros i Hi. apply H5. lia.
    + f_equal. destruct (Z.eq_dec j j0); [assumption|]. specialize (H5 j). lia.
Qed.

Lemma find_l_ok e j l0 : 0 <= j < len e -> forall fuel l, l0 <= l -> 0 <= l0 -> l < len e -> (Z.to_nat (l - l0) <= fuel)%nat ->
  (forall i, l0 < i <= l -> at_ e i <= at_ e j) -> at_ e j < at_ e l0 -> find_l fuel e j l = Ret l0.
Proof.
  intros Hj. induction fuel as [|f IH]; intros l H1 H2 H3 H4 H5 H6; cbn [find_l];
    rewrite !pyget_at by lia; cbn [bind]; rewrite Z.geb_leb.
  - assert (l = l0) by lia. subst l. destruct (Z.leb_spec (at_ e l0) (at_ e j)); [lia|reflexivity].
  - destruct (Z.leb_spec (at_ e l) (at_ e j)) as [L|L].
    + assert (l <> l0) by (intros ->; lia). apply IH; try lia. intros i Hi. apply H5. lia.
    + f_equal. destruct (Z.eq_dec l l0); [assumption|]. specialize (H5 l). lia.
Qed.

Definition desc (l : list Z) : Prop := StronglySorted (fun x y => y <= x) l.

Lemma desc_at l i : desc l -> 0 <= i -> i + 1 < len l -> at_ l (i + 1) <= at_ l i.
Proof.
  intros H. revert i. induction H as [|x l Hs IH Hf]; intros i Hi Hl; cbn [length] in *; [lia|].
  unfold at_ in *. replace (Z.to_nat (i + 1)) with (S (Z.to_nat i)) by lia. cbn [nth].
  destruct (Z.eq_dec i 0) as [->|N].
  - cbn [Z.to_nat nth]. rewrite Forall_forall in Hf. apply Hf. apply nth_In. lia.
  - specialize (IH (i - 1)). replace (Z.to_nat i) with (S (Z.to_nat (i - 1))) by lia. cbn [nth].
    replace (Z.to_nat (i - 1 + 1)) with (S (Z.to_nat (i - 1))) in IH by lia. apply IH; lia.
Qed.

Lemma desc_at_lt l i k : desc l -> 0 <= i <= k -> k < len l -> at_ l k <= at_ l i.
Proof.
  intros H [Hi Hk] Hl. replace k with (i + Z.of_nat (Z.to_nat (k - i))) by lia.
  assert (Hd : (Z.to_nat (k - i) < length l - Z.to_nat i)%nat) by lia. revert Hd.
  generalize (Z.to_nat (k - i)) as d. induction d as [|d IH]; intros Hd; [rewrite Z.add_0_r; lia|].
  replace (i + Z.of_nat (S d)) with (i + Z.of_nat d + 1) by lia.
  pose proof (desc_at l (i + Z.of_nat d) H). specialize (IH ltac:(lia)). lia.
Qed.

(** A list is non-increasing, or has a last ascent. *)
Lemma last_ascent l : desc l \/
  exists p x s1 y s2, l = p ++ x :: s1 ++ y :: s2 /\ desc (s1 ++ y :: s2) /\ x < y /\ (forall z, In z s2 -> z <= x).
Proof.
  induction l as [|a l IH]; [left; constructor|].
  destruct IH as [H|(p & x & s1 & y & s2 & -> & H)]; [|right; exists (a :: p), x, s1, y, s2; auto].
  destruct l as [|b l]; [left; repeat constructor|].
  destruct (Z_le_gt_dec b a) as [L|L].
  - left. constructor; [exact H|]. inversion_clear H as [|? ? H1 H2]. constructor; [exact L|].
    eapply Forall_impl; [|exact H2]. cbn. intros; lia.
  - right. (* split b::l at the last element greater than a *)
    assert (G : forall s, desc s -> (exists z, In z s /\ a < z) ->
              exists s1 y s2, s = s1 ++ y :: s2 /\ a < y /\ (forall z, In z s2 -> z <= a)).
    { induction s as [|c s IHs]; intros Hs (z & Hz & Hlt); [destruct Hz|].
      inversion_clear Hs as [|? ? H1 H2]. rewrite Forall_forall in H2.
      destruct (Z_lt_ge_dec a c) as [Hc|Hc].
      - destruct s as [|d s].
        + exists [], c, []. repeat split; auto. intros w [].
        + destruct (Z_lt_ge_dec a d) as [Hd|Hd].
          * destruct (IHs H1) as (s1 & y & s2 & E & Hy & H3); [exists d; split; [left; reflexivity|exact Hd]|].
            exists (c :: s1), y, s2. rewrite E. auto.
          * exists [], c, (d :: s). split; [reflexivity|]. split; [exact Hc|]. intros w [<-|Hw]; [lia|].
            inversion_clear H1 as [|? ? H4 H5]. rewrite Forall_forall in H5. specialize (H5 w Hw). lia.
      - exfalso. destruct Hz as [<-|Hz]; [lia|]. specialize (H2 z Hz). lia. }
    destruct (G (b :: l) H) as (s1 & y & s2 & E & Hy & H3); [exists b; split; [left; reflexivity|lia]|].
    exists [], a, s1, y, s2. rewrite E in *. auto.
Qed.

Definition is_perm (m l : list Z) : Prop := Permutation l m.

(** The step of algorithm L on a list with a last ascent. *)
Lemma desc_app_inv p q : desc (p ++ q) -> desc p /\ desc q /\ forall x y, In x p -> In y q -> y <= x.
Proof. apply SSorted_app_inv. Qed.

Lemma knuth_step_some p x s1 y s2 j0 :
  desc (s1 ++ y :: s2) -> x < y -> (forall z, In z s2 -> z <= x) ->
  len p <= j0 -> j0 + 1 < len (p ++ x :: s1 ++ y :: s2) ->
  knuth_step (p ++ x :: s1 ++ y :: s2) j0 =
    Ret (Some (p ++ y :: rev (s1 ++ x :: s2), len p)).
Proof.
  intros Hd Hxy Hs2 Hj0 Hj1. unfold knuth_step. set (e := p ++ x :: s1 ++ y :: s2) in *.
  assert (Le : len e = len p + 1 + len s1 + 1 + len s2) by (unfold e; rewrite app_length; cbn [length]; rewrite app_length; cbn [length]; lia).
  assert (Ax : at_ e (len p) = x).
  { unfold at_, e. rewrite Nat2Z.id, nth_middle. reflexivity. }
  assert (As : forall i, len p < i -> at_ e i = at_ (s1 ++ y :: s2) (i - len p - 1)).
  { intros i Hi. unfold e. rewrite at_app2 by lia. unfold at_.
    replace (Z.to_nat (i - len p)) with (S (Z.to_nat (i - len p - 1))) by lia. reflexivity. }
  assert (Ay : at_ e (len p + 1 + len s1) = y).
  { rewrite As by lia. unfold at_. replace (Z.to_nat (len p + 1 + len s1 - len p - 1)) with (length s1) by lia. apply nth_middle. }
  assert (Lsuf : len (s1 ++ y :: s2) = len s1 + 1 + len s2) by (rewrite app_length; cbn [length]; lia).
  rewrite (find_j_ok e (len p)).
  - cbn [bind]. destruct (Z.ltb_spec (len p) 0); [lia|].
    rewrite (find_l_ok e (len p) (len p + 1 + len s1)).
    + cbn [bind]. unfold e at 1. rewrite swap_mid by lia. cbn [bind].
      replace (p ++ y :: s1 ++ x :: s2) with ((p ++ [y]) ++ (s1 ++ x :: s2) ++ []) by (rewrite app_nil_r, <- app_assoc; reflexivity).
      rewrite rev_loop_ok.
      * cbn [bind]. rewrite app_nil_r, <- app_assoc. reflexivity.
      * rewrite !app_length. cbn [length]. lia.
      * rewrite app_length. cbn [length]. lia.
      * rewrite app_length. cbn [length]. lia.
    + lia.
    + lia.
    + lia.
    + lia.
    + lia.
    + intros i Hi. rewrite Ax, As by lia. rewrite at_app2 by lia.
      unfold at_. replace (Z.to_nat (i - len p - 1 - len s1)) with (S (Z.to_nat (i - len p - 2 - len s1))) by lia. cbn [nth].
      apply Hs2. apply nth_In. lia.
    + rewrite Ax, Ay. exact Hxy.
  - exact Hj0.
  - lia.
  - lia.
  - lia.
  - intros i Hi. rewrite !As by lia. replace (i + 1 - len p - 1) with (i - len p - 1 + 1) by lia.
    apply desc_at; [exact Hd|lia|lia].
  - intros _. rewrite Ax, As by lia. replace (len p + 1 - len p - 1) with 0 by lia.
    assert (y <= at_ (s1 ++ y :: s2) 0); [|lia].
    rewrite As in Ay by lia. pose proof (desc_at_lt _ 0 (len p + 1 + len s1 - len p - 1) Hd). lia.
Qed.

Lemma knuth_step_none e j0 : (forall i, 0 <= i <= j0 -> at_ e (i + 1) <= at_ e i) -> j0 + 1 < len e \/ j0 < 0 ->
  knuth_step e j0 = Ret None.
Proof.
  intros Hd Hj. unfold knuth_step. destruct (Z_lt_ge_dec j0 0) as [L|L].
  - destruct (length e); cbn [find_j]; destruct (Z.leb_spec 0 j0); try lia; cbn [bind]; destruct (Z.ltb_spec j0 0); try lia; reflexivity.
  - rewrite (find_j_ok e (-1)); [reflexivity|lia|lia|lia|lia|intros; apply Hd; lia|lia].
Qed.

(** Algorithm L moves to the next arrangement in lexicographic order. *)
Lemma next_arrangement p x s1 y s2 :
  desc (s1 ++ y :: s2) -> x < y -> (forall z, In z s2 -> z <= x) ->
  let l := p ++ x :: s1 ++ y :: s2 in let l' := p ++ y :: rev (s1 ++ x :: s2) in
  Permutation l' l /\ StronglySorted Z.le (rev (s1 ++ x :: s2)) /\ lexlt l l' /\
  forall c, Permutation c l -> lexlt l c -> ~ lexlt c l'.
Proof.
  intros Hd Hxy Hs2 l l'.
  destruct (desc_app_inv _ _ Hd) as (D1 & D2 & D3). inversion_clear D2 as [|? ? D4 D5]. rewrite Forall_forall in D5.
  assert (Hasc : StronglySorted Z.le (rev (s1 ++ x :: s2))).
  { apply sorted_le_desc. apply SSorted_app; [exact D1| |].
    - constructor; [exact D4|]. apply Forall_forall. exact Hs2.
    - intros a b Ha Hb. specialize (D3 a y Ha (or_introl eq_refl)). destruct Hb as [<-|Hb]; [lia|].
      specialize (Hs2 b Hb). lia. }
  assert (Hpsuf : Permutation (y :: rev (s1 ++ x :: s2)) (x :: s1 ++ y :: s2)).
  { rewrite <- (Permutation_rev (s1 ++ x :: s2)). rewrite <- (Permutation_middle s1 s2 x), <- (Permutation_middle s1 s2 y).
    constructor. }
  assert (Hp : Permutation l' l) by (unfold l, l'; apply Permutation_app_head, Hpsuf).
  split; [exact Hp|]. split; [exact Hasc|]. split; [apply lexlt_app; cbn; left; exact Hxy|].
  intros c Hc Hlt Hcl'. unfold l in Hlt.
  destruct (lexlt_prefix p _ (y :: rev (s1 ++ x :: s2)) c Hlt) as [(d & -> & Hd')|Hgt].
  - unfold l in Hc. apply Permutation_app_inv_l in Hc. unfold l' in Hcl'. apply (proj1 (lexlt_app p _ _)) in Hcl'.
    destruct d as [|c0 d]; [cbn in Hcl'; apply Permutation_nil in Hc; discriminate|]. cbn in Hd', Hcl'.
    destruct Hd' as [Hx0|[<- Hd']].
    + assert (Hin : In c0 (x :: s1 ++ y :: s2)) by (eapply Permutation_in; [exact Hc|left; reflexivity]).
      assert (Hc0 : y <= c0).
      { destruct Hin as [->|Hin]; [lia|]. apply in_app_or in Hin. destruct Hin as [Hin|[<-|Hin]]; [|lia|].
        - apply (D3 c0 y Hin). left; reflexivity.
        - specialize (Hs2 c0 Hin). lia. }
      destruct Hcl' as [|[-> Hcl']]; [lia|].
      refine (asc_min _ _ Hasc _ Hcl'). apply (Permutation_cons_inv (a := y)). rewrite Hc. symmetry. exact Hpsuf.
    + apply Permutation_cons_inv in Hc. exact (desc_max _ _ Hd Hc Hd').
  - exact (lexlt_irr _ (lexlt_trans _ _ _ Hgt Hcl')).
Qed.

Lemma knuth_next_cases l : (knuth_next l = Ret None /\ desc l) \/
  (exists p x s1 y s2, l = p ++ x :: s1 ++ y :: s2 /\ desc (s1 ++ y :: s2) /\ x < y /\ (forall z, In z s2 -> z <= x) /\
     knuth_next l = Ret (Some (p ++ y :: rev (s1 ++ x :: s2)))).
Proof.
  destruct (last_ascent l) as [H|(p & x & s1 & y & s2 & -> & Hd & Hxy & Hs2)].
  - left. split; [|exact H]. unfold knuth_next. rewrite knuth_step_none; [reflexivity| |].
    + intros i Hi. apply desc_at; [exact H|lia|lia].
    + lia.
  - right. exists p, x, s1, y, s2. repeat (split; [assumption || reflexivity|]). unfold knuth_next.
    rewrite knuth_step_some; try assumption; [reflexivity| |].
    + rewrite app_length. cbn [length]. rewrite app_length. cbn [length]. lia.
    + lia.
Qed.

Lemma words_perm m l : Permutation l m -> In l (words m (length m)).
Proof.
  intros H. apply words_In; [rewrite (Permutation_length H); lia|]. intros x Hx. eapply Permutation_in; eassumption.
Qed.

Theorem knuth_enum elements : exists L, yields (knuth_algorithm_l elements) L /\
  StronglySorted lexlt L /\ (forall l, In l L <-> Permutation l elements).
Proof.
  unfold knuth_algorithm_l.
  apply (gen_enum (fun e => e) knuth_next (fun l => Permutation l elements) (words elements (length elements))
           (fun l => Permutation l elements) lexlt).
  - apply words_perm.
  - apply lexlt_irr.
  - apply lexlt_trans.
  - intros a b _ _. apply lexlt_tot.
  - auto.
  - intros l Hl. destruct (knuth_next_cases l) as [[E H]|(p & x & s1 & y & s2 & -> & Hd & Hxy & Hs2 & E)].
    + left. split; [exact E|]. intros c Hc. apply desc_max; [exact H|]. rewrite Hc. symmetry. exact Hl.
    + right. eexists. split; [exact E|]. destruct (next_arrangement p x s1 y s2 Hd Hxy Hs2) as (N1 & N2 & N3 & N4).
      split; [rewrite N1; exact Hl|]. split; [exact N3|]. intros c Hc. apply N4. rewrite Hc. symmetry. exact Hl.
  - apply zsort_perm.
  - intros c Hc. apply asc_min; [apply zsort_sorted|]. rewrite Hc. symmetry. apply zsort_perm.
Qed.
