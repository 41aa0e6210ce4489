(** * Proofs about the generation of permutations: phillips and variations *)
From Coq Require Import ZArith List Lia Bool Sorting.Sorted Sorting.Permutation.
From Verif Require Import Base Lists Lists2 Gen Lex Perm_Model Perm_Proofs.
Import ListNotations.
Open Scope Z_scope.

(** ** phillips *)
Definition atw (e : list Z) (i : Z) : Z := if i <? 0 then at_ e (i + len e) else at_ e i.

Lemma pyget_atw e i : - len e <= i < len e -> pyget e i = Ret (atw e i).
Proof.
  intros H. unfold atw. destruct (Z.ltb_spec i 0) as [L|L]; [|apply pyget_at; lia].
  unfold pyget, pyidx. destruct (Z.leb_spec 0 i); [lia|].
  cbn [andb]. unfold at_.
  destruct (Z.leb_spec (- len e) i); [|lia]. destruct (Z.ltb_spec i 0); [|lia]. cbn [andb].
  rewrite (nth_error_nth' e 0) by lia. reflexivity.
Qed.

Lemma find_jp_ok e j0 : -1 <= j0 -> forall fuel j, j0 <= j -> j + 1 < len e -> (Z.to_nat (j - j0) <= fuel)%nat ->
  (forall i, j0 < i <= j -> at_ e (i + 1) <= at_ e i) -> atw e j0 < at_ e (j0 + 1) ->
  find_jp fuel e (at_ e (j + 1)) (atw e j) j = Ret (at_ e (j0 + 1), atw e j0, j0).
Proof.
  intros H0. induction fuel as [|f IH]; intros j H1 H3 H4 H5 H6; cbn [find_jp]; rewrite Z.geb_leb.
  - assert (j = j0) by lia. subst j. destruct (Z.leb_spec (at_ e (j0 + 1)) (atw e j0)); [lia|reflexivity].
  - destruct (Z.eq_dec j j0) as [->|N].
    + destruct (Z.leb_spec (at_ e (j0 + 1)) (atw e j0)); [lia|reflexivity].
    + assert (E : atw e j = at_ e j) by (unfold atw; destruct (Z.ltb_spec j 0); [lia|reflexivity]).
      rewrite E. specialize (H5 j) as H5j. destruct (Z.leb_spec (at_ e (j + 1)) (at_ e j)); [|lia].
      rewrite pyget_atw by lia. cbn [bind]. replace (at_ e j) with (at_ e (j - 1 + 1)) by (f_equal; lia).
      apply IH; [lia|lia|lia| |exact H6]. intros i Hi. apply H5. lia.
Qed.

Lemma find_lp_ok e y l0 : forall fuel l, l0 <= l -> 0 <= l0 -> l < len e -> (Z.to_nat (l - l0) <= fuel)%nat ->
  (forall i, l0 < i <= l -> at_ e i <= y) -> y < at_ e l0 -> find_lp fuel e y l = Ret l0.
Proof.
  induction fuel as [|f IH]; intros l H1 H2 H3 H4 H5 H6; cbn [find_lp];
    rewrite !pyget_at by lia; cbn [bind]; rewrite Z.geb_leb.
  - assert (l = l0) by lia. subst l. destruct (Z.leb_spec (at_ e l0) y); [lia|reflexivity].
  - destruct (Z.leb_spec (at_ e l) y) as [L|L].
    + assert (l <> l0) by (intros ->; lia). apply IH; try lia. intros i Hi. apply H5. lia.
    + f_equal. destruct (Z.eq_dec l l0); [assumption|]. specialize (H5 l). lia.
Qed.

(** Phillips' version takes the same step whenever the elements are not all equal. *)
Lemma phillips_none l : (3 <= length l)%nat -> desc l -> (exists a b, In a l /\ In b l /\ a <> b) ->
  phillips_next l = Ret None.
Proof.
  intros Hl Hd (a & b & Ha & Hb & Hab). unfold phillips_next. cbv zeta. remember (len l - 1) as n eqn:Hn.
  assert (D : forall i, 0 <= i -> i + 1 < len l -> at_ l (i + 1) <= at_ l i) by (intros; apply desc_at; assumption).
  rewrite (pyget_at l (n - 1)), (pyget_at l n) by lia. cbn [bind].
  pose proof (D (n - 1)) as D1. replace (n - 1 + 1) with n in D1 by lia. destruct (Z.ltb_spec (at_ l (n - 1)) (at_ l n)); [lia|].
  rewrite (pyget_at l (n - 2)) by lia. cbn [bind].
  pose proof (D (n - 2)) as D2. replace (n - 2 + 1) with (n - 1) in D2 by lia. destruct (Z.ltb_spec (at_ l (n - 2)) (at_ l (n - 1))); [lia|].
  rewrite pyget_atw by lia. cbn [bind].
  replace (at_ l (n - 2)) with (at_ l (n - 3 + 1)) by (f_equal; lia).
  rewrite (find_jp_ok l (-1)).
  - reflexivity.
  - lia.
  - lia.
  - lia.
  - lia.
  - intros i Hi. apply D; lia.
  - change (-1 + 1) with 0. unfold atw. change (-1 <? 0) with true. cbv iota. replace (-1 + len l) with n by lia.
    assert (B : forall z, In z l -> at_ l n <= z <= at_ l 0).
    { intros z Hz. apply (In_nth _ _ 0) in Hz. destruct Hz as (k & Hk & <-).
      replace (nth k l 0) with (at_ l (Z.of_nat k)) by (unfold at_; rewrite Nat2Z.id; reflexivity).
      split; apply desc_at_lt; auto; lia. }
    pose proof (B a Ha). pose proof (B b Hb). lia.
Qed.

Lemma phillips_some p x s1 y s2 : (3 <= length (p ++ x :: s1 ++ y :: s2))%nat ->
  desc (s1 ++ y :: s2) -> x < y -> (forall z, In z s2 -> z <= x) ->
  phillips_next (p ++ x :: s1 ++ y :: s2) = Ret (Some (p ++ y :: rev (s1 ++ x :: s2))).
Proof.
  intros Hl Hd Hxy Hs2. unfold phillips_next. cbv zeta. set (e := p ++ x :: s1 ++ y :: s2) in *.
  assert (Le : len e = len p + 1 + len s1 + 1 + len s2) by (unfold e; rewrite app_length; cbn [length]; rewrite app_length; cbn [length]; lia).
  remember (len e - 1) as n eqn:Hn.
  assert (Ax : at_ e (len p) = x).
  { unfold at_, e. rewrite Nat2Z.id, nth_middle. reflexivity. }
  assert (As : forall i, len p < i -> at_ e i = at_ (s1 ++ y :: s2) (i - len p - 1)).
  { intros i Hi. unfold e. rewrite at_app2 by lia. unfold at_.
    replace (Z.to_nat (i - len p)) with (S (Z.to_nat (i - len p - 1))) by lia. reflexivity. }
  assert (Ay : at_ e (len p + 1 + len s1) = y).
  { rewrite As by lia. unfold at_. replace (Z.to_nat (len p + 1 + len s1 - len p - 1)) with (length s1) by lia. apply nth_middle. }
  assert (Lsuf : len (s1 ++ y :: s2) = len s1 + 1 + len s2) by (rewrite app_length; cbn [length]; lia).
  assert (D : forall i, len p < i -> i + 1 < len e -> at_ e (i + 1) <= at_ e i).
  { intros i Hi Hi'. rewrite !As by lia. replace (i + 1 - len p - 1) with (i - len p - 1 + 1) by lia.
    apply desc_at; [exact Hd|lia|lia]. }
  assert (Hasc : x < at_ e (len p + 1)).
  { rewrite As by lia. rewrite As in Ay by lia. pose proof (desc_at_lt _ (len p + 1 - len p - 1) (len p + 1 + len s1 - len p - 1) Hd). lia. }
  rewrite (pyget_at e (n - 1)), (pyget_at e n) by lia. cbn [bind].
  destruct (Z.ltb_spec (at_ e (n - 1)) (at_ e n)) as [L1|L1].
  { (* suffix of length 1 *)
    assert (len p = n - 1).
    { destruct (Z.eq_dec (len p) (n - 1)); [assumption|]. pose proof (D (n - 1)) as Q. replace (n - 1 + 1) with n in Q by lia. lia. }
    destruct s1 as [|]; [|cbn [length] in *; lia]. destruct s2 as [|]; [|cbn [length] in *; lia]. cbn [app] in *.
    replace (at_ e n) with y by (rewrite <- Ay; f_equal; cbn [length]; lia).
    replace (at_ e (n - 1)) with x by (rewrite <- Ax; f_equal; lia).
    unfold e. rewrite pyset_mid by lia. cbn [bind].
    replace (p ++ [y; y]) with ((p ++ [y]) ++ [y]) by (rewrite <- app_assoc; reflexivity).
    rewrite pyset_mid by (rewrite app_length; cbn [length]; lia). cbn [bind]. rewrite <- app_assoc. reflexivity. }
  assert (N1 : len p <> n - 1).
  { intros E. replace (at_ e (n - 1)) with x in L1 by (rewrite <- Ax; f_equal; lia).
    replace (len p + 1) with n in Hasc by lia. lia. }
  rewrite (pyget_at e (n - 2)) by lia. cbn [bind].
  destruct (Z.ltb_spec (at_ e (n - 2)) (at_ e (n - 1))) as [L2|L2].
  { assert (P2 : len p = n - 2).
    { destruct (Z.eq_dec (len p) (n - 2)); [assumption|]. pose proof (D (n - 2)) as Q. replace (n - 2 + 1) with (n - 1) in Q by lia. lia. }
    replace (at_ e (n - 2)) with x by (rewrite <- Ax; f_equal; lia).
    destruct s1 as [|a s1].
    - destruct s2 as [|b [|]]; cbn [length] in *; try lia.
      assert (Eb : at_ e n = b). { rewrite As by lia. replace (n - len p - 1) with 1 by lia. reflexivity. }
      rewrite Eb. specialize (Hs2 b (or_introl eq_refl)). destruct (Z.ltb_spec x b); [lia|].
      replace (at_ e (n - 1)) with y by (rewrite <- Ay; f_equal; lia).
      unfold e. cbn [app]. rewrite pyset_mid by lia. cbn [bind].
      replace (p ++ [y; y; b]) with ((p ++ [y]) ++ [y; b]) by (rewrite <- app_assoc; reflexivity).
      rewrite pyset_mid by (rewrite app_length; cbn [length]; lia). cbn [bind].
      replace ((p ++ [y]) ++ [b; b]) with ((p ++ [y; b]) ++ [b]) by (rewrite <- !app_assoc; reflexivity).
      rewrite pyset_mid by (rewrite app_length; cbn [length]; lia). cbn [bind]. rewrite <- app_assoc. reflexivity.
    - destruct s1 as [|]; [|cbn [length] in *; lia]. destruct s2 as [|]; [|cbn [length] in *; lia]. cbn [length] in *.
      replace (at_ e n) with y by (rewrite <- Ay; f_equal; lia). destruct (Z.ltb_spec x y); [|lia].
      assert (Ea : at_ e (n - 1) = a). { rewrite As by lia. replace (n - 1 - len p - 1) with 0 by lia. reflexivity. }
      rewrite Ea. unfold e. cbn [app]. rewrite pyset_mid by lia. cbn [bind].
      replace (p ++ [y; a; y]) with ((p ++ [y]) ++ [a; y]) by (rewrite <- app_assoc; reflexivity).
      rewrite pyset_mid by (rewrite app_length; cbn [length]; lia). cbn [bind].
      replace ((p ++ [y]) ++ [x; y]) with ((p ++ [y; x]) ++ [y]) by (rewrite <- !app_assoc; reflexivity).
      rewrite pyset_mid by (rewrite app_length; cbn [length]; lia). cbn [bind]. rewrite <- app_assoc. reflexivity. }
  assert (N2 : len p <> n - 2).
  { intros E. replace (at_ e (n - 2)) with x in L2 by (rewrite <- Ax; f_equal; lia).
    replace (len p + 1) with (n - 1) in Hasc by lia. lia. }
  rewrite pyget_atw by lia. cbn [bind]. replace (at_ e (n - 2)) with (at_ e (n - 3 + 1)) by (f_equal; lia).
  assert (Aw : atw e (len p) = x) by (unfold atw; destruct (Z.ltb_spec (len p) 0); [lia|exact Ax]).
  rewrite (find_jp_ok e (len p)); [|lia|lia|lia|lia|intros i Hi; apply D; lia|rewrite Aw; exact Hasc].
  cbn [bind]. rewrite Aw. destruct (Z.ltb_spec (len p) 0); [lia|].
  destruct (Z.ltb_spec x (at_ e n)) as [L3|L3].
  - (* the last element is the one exchanged *)
    destruct s2 as [|b s2].
    2: { exfalso. assert (In (at_ e n) (b :: s2)).
         { rewrite As by lia. rewrite at_app2 by lia. unfold at_. cbn [length] in *.
           replace (Z.to_nat (n - len p - 1 - len s1)) with (S (Z.to_nat (n - len p - 2 - len s1))) by lia.
           cbn [nth]. apply (nth_In (b :: s2)). cbn [length]. lia. }
         specialize (Hs2 _ H0). lia. }
    cbn [length] in *.
    destruct s1 as [|h s1]; [cbn [length] in *; lia|]. cbn [length] in *.
    replace (at_ e n) with y by (rewrite <- Ay; f_equal; lia).
    assert (Eh : at_ e (len p + 1) = h). { rewrite As by lia. replace (len p + 1 - len p - 1) with 0 by lia. reflexivity. }
    rewrite Eh. unfold e. cbn [app]. rewrite pyset_mid by lia. cbn [bind].
    replace (p ++ y :: h :: s1 ++ [y]) with ((p ++ [y]) ++ h :: s1 ++ [y]) by (rewrite <- app_assoc; reflexivity).
    rewrite pyset_mid by (rewrite app_length; cbn [length]; lia). cbn [bind].
    replace ((p ++ [y]) ++ x :: s1 ++ [y]) with ((p ++ y :: x :: s1) ++ [y])
      by (rewrite <- !app_assoc; reflexivity).
    rewrite pyset_mid by (rewrite app_length; cbn [length]; lia). cbn [bind].
    replace ((p ++ y :: x :: s1) ++ [h]) with ((p ++ [y; x]) ++ s1 ++ [h])
      by (rewrite <- !app_assoc; reflexivity).
    rewrite rev_loop_ok.
    + cbn [bind app rev]. rewrite rev_app_distr. cbn [rev app]. rewrite <- app_assoc. reflexivity.
    + rewrite !app_length. cbn [length]. lia.
    + rewrite !app_length. cbn [length]. lia.
    + lia.
  - assert (Hn2 : s2 <> []).
    { intros En. replace (at_ e n) with y in L3; [lia|]. rewrite <- Ay. f_equal.
      replace (length s2) with O in * by (rewrite En; reflexivity). lia. }
    destruct (exists_last Hn2) as (t & z & Et). subst s2.
    rewrite app_length in *. cbn [length] in *.
    assert (Az : at_ e n = z).
    { unfold at_. replace e with ((p ++ x :: s1 ++ y :: t) ++ [z])
        by (unfold e; rewrite <- !app_assoc; cbn [app]; rewrite <- !app_assoc; reflexivity).
      replace (Z.to_nat n) with (length (p ++ x :: s1 ++ y :: t)).
      - apply nth_middle.
      - rewrite !app_length. cbn [length]. rewrite !app_length. cbn [length]. lia. }
    rewrite (find_lp_ok e x (len p + 1 + len s1)).
    2: lia. 2: lia. 2: lia. 2: lia.
    2: { intros i Hi. rewrite As by lia. rewrite at_app2 by lia. unfold at_.
         replace (Z.to_nat (i - len p - 1 - len s1)) with (S (Z.to_nat (i - len p - 2 - len s1))) by lia. cbn [nth].
         apply Hs2. apply nth_In. rewrite app_length. cbn [length]. lia. }
    2: rewrite Ay; exact Hxy.
    cbn [bind]. rewrite pyget_at by lia. rewrite Ay, Az. cbn [bind].
    unfold e. rewrite pyset_mid by lia. cbn [bind].
    replace (p ++ y :: s1 ++ y :: t ++ [z]) with ((p ++ y :: s1) ++ y :: t ++ [z]) by (rewrite <- app_assoc; reflexivity).
    rewrite pyset_mid by (rewrite app_length; cbn [length]; lia). cbn [bind].
    assert (Hm : exists h m, s1 ++ x :: t = h :: m) by (destruct s1 as [|h s1]; cbn [app]; eauto).
    destruct Hm as (h & m & Em).
    assert (Lm : len s1 + 1 + len t = 1 + len m).
    { apply (f_equal (@length Z)) in Em. rewrite app_length in Em. cbn [length] in Em. lia. }
    replace ((p ++ y :: s1) ++ x :: t ++ [z]) with ((p ++ [y]) ++ h :: m ++ [z]).
    2: { rewrite <- !app_assoc. cbn [app]. rewrite app_comm_cons, <- Em, <- app_assoc. reflexivity. }
    rewrite pyget_mid by (rewrite app_length; cbn [length]; lia). cbn [bind].
    replace ((p ++ [y]) ++ h :: m ++ [z]) with ((p ++ y :: h :: m) ++ [z]) by (rewrite <- !app_assoc; reflexivity).
    rewrite pyset_mid by (rewrite app_length; cbn [length]; lia). cbn [bind].
    replace ((p ++ y :: h :: m) ++ [h]) with ((p ++ [y]) ++ h :: m ++ [h]) by (rewrite <- !app_assoc; reflexivity).
    rewrite pyset_mid by (rewrite app_length; cbn [length]; lia). cbn [bind].
    replace ((p ++ [y]) ++ z :: m ++ [h]) with ((p ++ [y; z]) ++ m ++ [h]) by (rewrite <- !app_assoc; reflexivity).
    rewrite rev_loop_ok.
    + cbn [bind]. replace (s1 ++ x :: t ++ [z]) with ((h :: m) ++ [z]) by (rewrite <- Em, <- app_assoc; reflexivity).
      rewrite rev_app_distr. cbn [rev app]. rewrite <- app_assoc. reflexivity.
    + rewrite !app_length. cbn [length]. lia.
    + rewrite !app_length. cbn [length]. lia.
    + lia.
Qed.

Lemma phillips_knuth l : (3 <= length l)%nat -> (exists a b, In a l /\ In b l /\ a <> b) ->
  phillips_next l = knuth_next l.
Proof.
  intros Hl Hne. destruct (knuth_next_cases l) as [[E H]|(p & x & s1 & y & s2 & -> & Hd & Hxy & Hs2 & E)]; rewrite E.
  - apply phillips_none; assumption.
  - apply phillips_some; assumption.
Qed.

Lemma gen_ext {St A} (visit : St -> A) (n1 n2 : St -> outcome (option St)) (I : St -> Prop) :
  (forall s, I s -> n1 s = n2 s) -> (forall s s', I s -> n2 s = Ret (Some s') -> I s') ->
  forall fuel s, I s -> gen visit n1 fuel s = gen visit n2 fuel s.
Proof.
  intros H1 H2. induction fuel as [|f IH]; intros s Hs; cbn [gen]; [reflexivity|].
  rewrite H1 by exact Hs. destruct (n2 s) as [[s'|]|e|] eqn:E; auto. rewrite (IH s'); eauto.
Qed.

Lemma phillips_is_knuth elements fuel : (3 <= length elements)%nat ->
  (exists a b, In a elements /\ In b elements /\ a <> b) ->
  phillips elements fuel = knuth_algorithm_l elements fuel.
Proof.
  intros Hl Hne. unfold phillips, knuth_algorithm_l.
  assert (Hs : length (zsort elements) = length elements) by apply zsort_length.
  transitivity (gen (fun e => e) phillips_next fuel (zsort elements)).
  - destruct (zsort elements) as [|a [|b [|c l]]]; cbn [length] in *; try lia; reflexivity.
  - apply (gen_ext _ _ _ (fun l => Permutation l elements)).
    + intros l Hp. apply phillips_knuth; [rewrite (Permutation_length Hp); exact Hl|].
      destruct Hne as (a & b & Ha & Hb & Hab). exists a, b.
      split; [eapply Permutation_in; [symmetry; exact Hp|exact Ha]|].
      split; [eapply Permutation_in; [symmetry; exact Hp|exact Hb]|exact Hab].
    + intros l l' Hp E. destruct (knuth_next_cases l) as [[E' H]|(p & x & s1 & y & s2 & -> & Hd & Hxy & Hs2 & E')];
        rewrite E' in E; [discriminate|]. injection E as <-.
      destruct (next_arrangement p x s1 y s2 Hd Hxy Hs2) as (N1 & _). rewrite N1. exact Hp.
    + apply zsort_perm.
Qed.

(** All elements equal, three or more: the index runs off the list. *)
Lemma find_jp_const a m : forall fuel j, - Z.of_nat m <= j < Z.of_nat m ->
  (Z.to_nat (j + Z.of_nat m + 1) <= fuel)%nat ->
  find_jp fuel (repeat a m) a a j = Raise IndexError.
Proof.
  induction fuel as [|f IH]; intros j Hj Hf; cbn [find_jp]; [lia|]. rewrite Z.geb_leb, Z.leb_refl.
  destruct (Z_le_gt_dec (- Z.of_nat m) (j - 1)) as [L|L].
  - rewrite pyget_atw by (rewrite repeat_length; lia). cbn [bind].
    replace (atw (repeat a m) (j - 1)) with a; [apply IH; lia|].
    unfold atw, at_. rewrite repeat_length.
    destruct (j - 1 <? 0) eqn:E; [apply Z.ltb_lt in E|apply Z.ltb_ge in E];
      rewrite (nth_indep _ 0 a) by (rewrite repeat_length; lia); rewrite nth_repeat; reflexivity.
  - unfold pyget, pyidx. rewrite repeat_length. destruct (Z.leb_spec 0 (j - 1)); [lia|].
    destruct (Z.leb_spec (- Z.of_nat m) (j - 1)); [lia|]. reflexivity.
Qed.

Lemma at_repeat a m i : 0 <= i < Z.of_nat m -> at_ (repeat a m) i = a.
Proof. intros H. unfold at_. rewrite (nth_indep _ 0 a) by (rewrite repeat_length; lia). apply nth_repeat. Qed.

Lemma zsort_repeat a m : zsort (repeat a m) = repeat a m.
Proof.
  induction m as [|m IH]; [reflexivity|]. cbn [repeat zsort]. rewrite IH.
  destruct m; [reflexivity|]. cbn [repeat zinsert]. rewrite Z.leb_refl. reflexivity.
Qed.

Lemma phillips_const a m fuel : (3 <= m)%nat -> phillips (repeat a m) (S fuel) = ([repeat a m], GRaised IndexError).
Proof.
  intros Hm. unfold phillips. rewrite zsort_repeat.
  transitivity (gen (fun e => e) phillips_next (S fuel) (repeat a m)).
  - destruct m as [|[|[|m]]]; try lia. reflexivity.
  - cbn [gen]. replace (phillips_next (repeat a m)) with (@Raise (option (list Z)) IndexError); [reflexivity|].
    symmetry. unfold phillips_next. cbv zeta. rewrite repeat_length.
    rewrite (pyget_at _ (Z.of_nat m - 1 - 1)), (pyget_at _ (Z.of_nat m - 1)) by (rewrite repeat_length; lia). cbn [bind]. rewrite !at_repeat by lia. rewrite Z.ltb_irrefl.
    rewrite (pyget_at _ (Z.of_nat m - 1 - 2)) by (rewrite repeat_length; lia). cbn [bind]. rewrite at_repeat by lia. rewrite Z.ltb_irrefl.
    rewrite pyget_atw by (rewrite repeat_length; lia). cbn [bind].
    replace (atw (repeat a m) (Z.of_nat m - 1 - 3)) with a.
    + rewrite find_jp_const by lia. reflexivity.
    + unfold atw. rewrite repeat_length. destruct (Z.ltb_spec (Z.of_nat m - 1 - 3) 0); rewrite at_repeat by lia; reflexivity.
Qed.

(** ** Variations *)
Definition is_variation (m a : list Z) : Prop := exists t, Permutation (a ++ t) m.

Lemma lexlt_app_r : forall a b t, lexlt a b -> lexlt a (b ++ t).
Proof. induction a as [|x a IH]; intros [|y b] t; cbn; try tauto. intros [H|[-> H]]; auto. Qed.

(** Below p, and not a prefix of p: below every extension. *)
Lemma lexlt_not_prefix : forall c p, lexlt c p -> (exists r, p = c ++ r) \/ forall t q, lexlt (c ++ t) (p ++ q).
Proof.
  induction c as [|x c IH]; intros [|y p] H; cbn in H; try tauto.
  - left. exists (y :: p). reflexivity.
  - destruct H as [H|[-> H]]; [right; intros t q; cbn; auto|].
    destruct (IH p H) as [[r ->]|G]; [left; exists r; reflexivity|]. right. intros t q. cbn. auto.
Qed.

Lemma lexlt_prefix_self c r : ~ lexlt (c ++ r) c.
Proof. induction c as [|x c IH]; [destruct r; cbn; auto|]. cbn. intros [|[_ H]]; [lia|tauto]. Qed.

Theorem variations_enum elements : exists L, yields (knuth_algorithm_l_variations elements) L /\
  StronglySorted lexlt L /\ (forall a, In a L <-> is_variation elements a).
Proof.
  unfold knuth_algorithm_l_variations.
  apply (gen_enum (fun st => firstn (Z.to_nat (snd st)) (fst st)) variations_next (is_variation elements)
           (words elements (length elements))
           (fun st => Permutation (fst st) elements /\ 0 <= snd st <= len elements /\
                      StronglySorted Z.le (skipn (Z.to_nat (snd st)) (fst st))) lexlt).
  - intros a [t Ht]. apply words_In.
    + apply Permutation_length in Ht. rewrite app_length in Ht. lia.
    + intros x Hx. eapply Permutation_in; [exact Ht|]. apply in_or_app. auto.
  - apply lexlt_irr.
  - apply lexlt_trans.
  - intros a b _ _. apply lexlt_tot.
  - intros [e j] (H & _). cbn [fst snd] in *. exists (skipn (Z.to_nat j) e). rewrite firstn_skipn. exact H.
  - intros [e j] (Hp & Hj & Hs). cbn [fst snd] in *. unfold variations_next.
    assert (Le : length e = length elements) by (apply Permutation_length; exact Hp).
    destruct (Z.leb_spec j (len e - 1)) as [L|L].
    + right. eexists. split; [reflexivity|]. cbn [fst snd].
      replace (Z.to_nat (j + 1)) with (S (Z.to_nat j)) by lia.
      assert (La : length (firstn (Z.to_nat j) e) = Z.to_nat j) by (apply firstn_length_le; lia).
      pose proof (eq_sym (firstn_skipn (Z.to_nat j) e)) as Ee.
      remember (firstn (Z.to_nat j) e) as a eqn:Ea. remember (skipn (Z.to_nat j) e) as u eqn:Eu.
      destruct u as [|b t].
      { rewrite app_nil_r in Ee. rewrite Ee in L. lia. }
      assert (F1 : firstn (S (Z.to_nat j)) e = a ++ [b]).
      { rewrite Ee, firstn_app, La. replace (S (Z.to_nat j) - Z.to_nat j)%nat with 1%nat by lia.
        rewrite firstn_all2 by lia. reflexivity. }
      assert (F2 : skipn (S (Z.to_nat j)) e = t).
      { rewrite Ee, skipn_app, La. replace (S (Z.to_nat j) - Z.to_nat j)%nat with 1%nat by lia.
        rewrite skipn_all2 by lia. reflexivity. }
      rewrite F1, F2. inversion_clear Hs as [|? ? Hs1 Hs2]. rewrite Forall_forall in Hs2.
      split; [split; [exact Hp|split; [lia|exact Hs1]]|].
      split.
      * rewrite <- (app_nil_r a) at 1. apply lexlt_app. exact I.
      * intros c [t' Hc] Hac Hcb. destruct (lexlt_not_prefix c (a ++ [b]) Hcb) as [[r Er]|G].
        -- destruct (lexlt_prefix a [] [b] c) as [(d & -> & Hd)|Hgt]; [rewrite app_nil_r; exact Hac| |].
           ++ rewrite <- app_assoc in Er. apply app_inv_head in Er. destruct d as [|d0 d]; [exact Hd|].
              injection Er as E0 E1. subst d0. cbn in Hcb. apply (proj1 (lexlt_app a _ _)) in Hcb. cbn in Hcb.
              destruct Hcb as [|[_ Hcb]]; [lia|]. destruct d; exact Hcb.
           ++ exact (lexlt_irr _ (lexlt_trans _ _ _ Hcb Hgt)).
        -- destruct (lexlt_prefix a [] [b] c) as [(d & -> & Hd)|Hgt]; [rewrite app_nil_r; exact Hac| |].
           ++ apply (proj1 (lexlt_app a _ _)) in Hcb. destruct d as [|d0 d]; [exact Hd|]. cbn in Hcb.
              destruct Hcb as [Hlt|[-> Hcb]]; [|destruct d; exact Hcb].
              assert (Hin : In d0 (b :: t)).
              { apply (Permutation_in d0 (l := d0 :: d ++ t')); [|left; reflexivity].
                rewrite <- Hp, Ee, <- app_assoc in Hc. apply Permutation_app_inv_l in Hc. exact Hc. }
              destruct Hin as [<-|Hin]; [lia|]. specialize (Hs2 d0 Hin). lia.
           ++ exact (lexlt_irr _ (lexlt_trans _ _ _ Hcb Hgt)).
    + assert (Ej : Z.to_nat j = length e) by lia. rewrite Ej, firstn_all.
      replace (len e - 1 - 1) with (len e - 2) by lia.
      destruct (last_ascent e) as [H|(p & x & s1 & y & s2 & Ee & Hd & Hxy & Hs2)].
      * left. rewrite knuth_step_none; [split; [reflexivity|]| |].
        -- intros c [t' Hc] Hlt. apply (desc_max e (c ++ t') H); [rewrite Hc; symmetry; exact Hp|].
           apply lexlt_app_r. exact Hlt.
        -- intros i Hi. apply desc_at; [exact H|lia|lia].
        -- lia.
      * right. subst e. assert (Lp : len (p ++ x :: s1 ++ y :: s2) = len p + 1 + len s1 + 1 + len s2).
        { rewrite app_length. cbn [length]. rewrite app_length. cbn [length]. lia. }
        rewrite knuth_step_some by (assumption || lia). cbn [bind]. eexists. split; [reflexivity|]. cbn [fst snd].
        destruct (next_arrangement p x s1 y s2 Hd Hxy Hs2) as (N1 & N2 & N3 & N4).
        replace (Z.to_nat (len p + 1)) with (length p + 1)%nat by lia.
        assert (F1 : firstn (length p + 1) (p ++ y :: rev (s1 ++ x :: s2)) = p ++ [y]).
        { rewrite firstn_app_2. reflexivity. }
        assert (F2 : skipn (length p + 1) (p ++ y :: rev (s1 ++ x :: s2)) = rev (s1 ++ x :: s2)).
        { rewrite skipn_app. rewrite skipn_all2 by lia. replace (length p + 1 - length p)%nat with 1%nat by lia. reflexivity. }
        rewrite F1, F2. split; [split; [rewrite N1; exact Hp|split; [lia|exact N2]]|].
        split; [apply lexlt_app; cbn; left; exact Hxy|].
        intros c [t' Hc] Hlt Hcp. apply (N4 (c ++ t')).
        -- rewrite Hc. symmetry. exact Hp.
        -- apply lexlt_app_r, Hlt.
        -- destruct (lexlt_not_prefix c (p ++ [y]) Hcp) as [[r Er]|G].
           ++ exfalso. destruct (exists_last (l := r)) as (r' & y' & ->).
              { intros ->. rewrite app_nil_r in Er. subst c. exact (lexlt_irr _ Hcp). }
              rewrite app_assoc in Er. apply app_inj_tail in Er. destruct Er as [-> _].
              rewrite <- app_assoc in Hlt. exact (lexlt_prefix_self _ _ Hlt).
           ++ specialize (G t' (rev (s1 ++ x :: s2))). rewrite <- app_assoc in G. exact G.
  - cbn [fst snd Z.to_nat skipn]. split; [apply zsort_perm|]. split; [lia|]. apply zsort_sorted.
  - intros c _. cbn [fst snd Z.to_nat firstn]. destruct c; cbn; auto.
Qed.
