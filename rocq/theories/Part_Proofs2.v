(** * Proofs about the generation of integer partitions: a fixed number of parts, and backtracking *)
From Coq Require Import ZArith List Lia Bool Sorting.Sorted Sorting.Permutation.
From Verif Require Import Base Lists Lists2 Gen Lex Perm_Proofs Part_Model Part_Proofs.
Import ListNotations.
Open Scope Z_scope.

(** ** Algorithm H *)
Definition asc (l : list Z) : Prop := StronglySorted Z.le l.

Lemma zsum_lower c w : Forall (fun x => c <= x) w -> c * len w <= zsum w.
Proof. induction 1 as [|x w Hx _ IH]; [cbn; lia|]. cbn [length]. rewrite zsum_cons. lia. Qed.
Lemma zsum_upper c w : Forall (fun x => x <= c) w -> zsum w <= c * len w.
Proof. induction 1 as [|x w Hx _ IH]; [cbn; lia|]. cbn [length]. rewrite zsum_cons. lia. Qed.

(** Among ascending lists of given length and sum, an almost constant one is greatest. *)
Lemma flat_max : forall w d c, asc d -> length d = length w -> zsum d = zsum w ->
  asc w -> Forall (fun x => c <= x <= c + 1) w -> ~ lexlt w d.
Proof.
  induction w as [|z w IH]; intros d c Hd Hl Hs Hw Hf H; [destruct d; [exact H|discriminate]|].
  destruct d as [|y d]; [exact H|]. cbn [length] in Hl. rewrite !zsum_cons in Hs.
  inversion_clear Hf as [|? ? Hz Hf']. inversion_clear Hd as [|? ? Hd1 Hd2]. inversion_clear Hw as [|? ? Hw1 Hw2].
  cbn in H. destruct H as [H|[<- H]].
  - assert (Q1 : y * len d <= zsum d) by (apply zsum_lower; exact Hd2).
    assert (Q2 : zsum w <= (z + 1) * len w).
    { apply zsum_upper. eapply Forall_impl; [|exact Hf']. intros u Hu. cbv beta in Hu. lia. }
    assert (E : len d = len w) by lia. rewrite E in Q1.
    assert ((z + 1) * len w <= y * len w) by (apply Z.mul_le_mono_nonneg_r; lia). lia.
  - apply (IH d c Hd1 ltac:(lia) ltac:(lia) Hw1 Hf' H).
Qed.

(** ... and the one that rises only at the end is least. *)
Lemma steep_min : forall k d x s, Forall (fun y => x <= y) d -> len d = Z.of_nat k + 1 -> zsum d = x * Z.of_nat k + s ->
  ~ lexlt d (repeat x k ++ [s]).
Proof.
  induction k as [|k IH]; intros d x s Hf Hl Hs H; destruct d as [|y d]; cbn [length] in Hl; try lia.
  - destruct d; [|cbn [length] in Hl; lia]. cbn in H, Hs. lia.
  - inversion_clear Hf as [|? ? Hy Hf']. rewrite zsum_cons in Hs. cbn in H. destruct H as [H|[-> H]]; [lia|].
    apply (IH d x s Hf'); [lia|lia|exact H].
Qed.

Lemma h_scan_ok a0 : forall v u s fuel, (length v <= fuel)%nat -> len u >= 1 ->
  exists p q, v = p ++ q /\ Forall (fun x => a0 - 1 <= x) p /\ (match q with [] => True | x :: _ => x < a0 - 1 end) /\
    h_scan fuel (len u + len v + 1) (a0 :: u ++ v) (len u + 1) s = Ret (len u + 1 + len p, s + zsum p).
Proof.
  induction v as [|x v IH]; intros u s fuel Hf Hu.
  - exists [], []. split; [reflexivity|]. split; [constructor|]. split; [exact I|]. cbn [length].
    destruct fuel; cbn [h_scan]; (destruct (Z.ltb_spec (len u + 1) (len u + Z.of_nat 0 + 1)); [lia|]); do 2 f_equal; cbn; lia.
  - cbn [length] in Hf. destruct fuel as [|f]; [lia|]. cbn [h_scan].
    destruct (Z.ltb_spec (len u + 1) (len u + len (x :: v) + 1)) as [_|H]; [|cbn [length] in H; lia].
    assert (G1 : pyget (a0 :: u ++ x :: v) (len u + 1) = Ret x).
    { change (a0 :: u ++ x :: v) with ((a0 :: u) ++ x :: v). apply pyget_mid. cbn [length]. lia. }
    assert (G2 : pyget (a0 :: u ++ x :: v) 0 = Ret a0) by (apply (pyget_mid []); reflexivity).
    rewrite G1, G2. cbn [bind]. destruct (Z.geb_spec x (a0 - 1)).
    + destruct (IH (u ++ [x]) (s + x) f) as (p & q & E1 & E2 & E3 & E4); [lia|rewrite app_length; cbn [length]; lia|].
      exists (x :: p), q. rewrite E1. split; [reflexivity|]. split; [constructor; [lia|exact E2]|]. split; [exact E3|].
      rewrite <- E1. rewrite <- app_assoc in E4. cbn [app] in E4. rewrite app_length in E4. cbn [length] in E4.
      replace (Z.of_nat (length u + 1) + len v + 1) with (len u + len (x :: v) + 1) in E4 by (cbn [length]; lia).
      replace (Z.of_nat (length u + 1) + 1) with (len u + 1 + 1) in E4 by lia. rewrite E4.
      rewrite zsum_cons. cbn [length]. do 2 f_equal; lia.
    + exists [], (x :: v). split; [reflexivity|]. split; [constructor|]. split; [lia|]. cbn. do 2 f_equal; lia.
Qed.

Lemma h_fill_ok r : forall u v a0 s fuel, (length u <= fuel)%nat ->
  h_fill fuel r (a0 :: u ++ v) (len u) s = Ret (a0 :: repeat r (length u) ++ v, s - r * len u).
Proof.
  induction u as [|x u IH] using rev_ind; intros v a0 s fuel Hf.
  - destruct fuel; cbn; do 2 f_equal; lia.
  - rewrite app_length in *. cbn [length] in *. destruct fuel as [|f]; [lia|]. cbn [h_fill].
    destruct (Z.gtb_spec (Z.of_nat (length u + 1)) 0); [|lia].
    assert (G : pyset (a0 :: (u ++ [x]) ++ v) (Z.of_nat (length u + 1)) r = Ret (a0 :: u ++ r :: v)).
    { rewrite <- app_assoc. change (a0 :: u ++ [x] ++ v) with ((a0 :: u) ++ x :: v). rewrite pyset_mid by (cbn [length]; lia). reflexivity. }
    rewrite G. cbn [bind]. replace (Z.of_nat (length u + 1) - 1) with (len u) by lia. rewrite IH by lia.
    do 2 f_equal; [|lia]. rewrite Nat.add_1_r, <- repeat_snoc, <- app_assoc. reflexivity.
Qed.

(** One step of algorithm H, as a rewriting of lists. *)
Lemma h_next_cases a0 a1 r : let a := a0 :: a1 :: r in
  (Forall (fun x => a0 - 1 <= x) (a1 :: r) /\ h_next (len a) a = Ret None) \/
  (exists u x v, a = (a0 :: u) ++ x :: v /\ Forall (fun x => a0 - 1 <= x) u /\ x < a0 - 1 /\
     h_next (len a) a = Ret (Some (((zsum (a0 :: u) - 1 - (x + 1) * len u) :: repeat (x + 1) (length u)) ++ (x + 1) :: v))).
Proof.
  cbv zeta. unfold h_next.
  assert (G1 : pyget (a0 :: a1 :: r) 1 = Ret a1) by (apply (pyget_mid [a0]); reflexivity).
  assert (G2 : pyget (a0 :: a1 :: r) 0 = Ret a0) by (apply (pyget_mid []); reflexivity).
  rewrite G1, G2. cbn [bind]. destruct (Z.ltb_spec a1 (a0 - 1)) as [H|H].
  - right. exists [], a1, r. split; [reflexivity|]. split; [constructor|]. split; [exact H|].
    assert (S1 : forall y, pyset (a0 :: a1 :: r) 0 y = Ret (y :: a1 :: r)) by (intros; apply (pyset_mid []); reflexivity).
    rewrite S1. cbn [bind].
    assert (S2 : forall y z, pyset (y :: a1 :: r) 1 z = Ret (y :: z :: r)) by (intros y z; apply (pyset_mid [y]); reflexivity).
    rewrite S2. cbn [bind]. cbn [length repeat app]. do 3 f_equal. cbn. lia.
  - destruct (h_scan_ok a0 r [a1] (a0 + a1 - 1) (Z.to_nat (len (a0 :: a1 :: r)))) as (p & q & E1 & E2 & E3 & E4).
    { cbn [length]. lia. } { cbn [length]. lia. }
    replace (len [a1] + len r + 1) with (len (a0 :: a1 :: r)) in E4 by (cbn [length]; lia).
    change (len [a1] + 1) with 2 in E4. cbn [app] in E4. rewrite E4. cbn [bind].
    destruct (Z.geb_spec (2 + len p) (len (a0 :: a1 :: r))) as [Hj|Hj].
    + left. split; [|reflexivity]. rewrite E1 in Hj. cbn [length] in Hj. rewrite app_length in Hj.
      assert (q = []) by (destruct q; [reflexivity|cbn [length] in Hj; lia]). subst q. rewrite app_nil_r in E1. subst r.
      constructor; [lia|exact E2].
    + destruct q as [|x q]; [rewrite E1, app_nil_r in Hj; cbn [length] in Hj; lia|].
      right. exists (a1 :: p), x, q. split; [rewrite E1; reflexivity|]. split; [constructor; [lia|exact E2]|]. split; [exact E3|].
      rewrite E1. change (a0 :: a1 :: p ++ x :: q) with ((a0 :: a1 :: p) ++ x :: q).
      rewrite pyget_mid by (cbn [length]; lia). cbn [bind]. rewrite pyset_mid by (cbn [length]; lia). cbn [bind].
      pose proof (h_fill_ok (x + 1) (a1 :: p) (x + 1 :: q) a0 (a0 + a1 - 1 + zsum p) (Z.to_nat (2 + len p))) as F.
      cbn [app] in F |- *. replace (2 + len p - 1) with (len (a1 :: p)) by (cbn [length]; lia).
      rewrite F by (cbn [length]; lia). cbn [bind].
      assert (S1 : forall w l y, pyset (w :: l) 0 y = Ret (y :: l : list Z)) by (intros; apply (pyset_mid []); reflexivity).
      rewrite S1. cbn [bind]. do 3 f_equal. rewrite !zsum_cons. lia.
Qed.

Lemma desc_asc l : desc l <-> asc (rev l).
Proof. apply sorted_le_desc. Qed.

Theorem algorithm_h_enum n m : 2 <= m <= n -> exists L, yields (algorithm_h n m) L /\
  StronglySorted (fun a b => lexlt (rev a) (rev b)) L /\ (forall a, In a L <-> is_partition n a /\ len a = m).
Proof.
  intros Hm. unfold algorithm_h.
  assert (E0 : pyset (repeat 1 (Z.to_nat m)) 0 (n - m + 1) = Ret ((n - m + 1) :: repeat 1 (Z.to_nat (m - 1)))).
  { replace (Z.to_nat m) with (S (Z.to_nat (m - 1))) by lia. reflexivity. }
  rewrite E0.
  apply (gen_enum (fun a => a) (h_next m) (fun a => is_partition n a /\ len a = m) (words (zrange 1 (n + 1)) (Z.to_nat n))
    (fun a => is_partition n a /\ len a = m) (fun a b => lexlt (rev a) (rev b))).
  - intros a [H _]. apply partition_words, H.
  - intros a. apply lexlt_irr.
  - intros a b c. apply lexlt_trans.
  - intros a b _ _. destruct (lexlt_tot (rev a) (rev b)) as [H|[H|H]]; auto.
    right. left. rewrite <- (rev_involutive a), H. apply rev_involutive.
  - auto.
  - intros a [(P1 & P2 & P3) Pl]. destruct a as [|a0 [|a1 r]]; [cbn in Pl; lia|cbn in Pl; lia|].
    assert (HN : h_next m = h_next (len (a0 :: a1 :: r))) by (rewrite Pl; reflexivity). rewrite HN. clear HN.
    destruct (h_next_cases a0 a1 r) as [(F & E)|(u & x & v & Ea & F & Hx & E)].
    + left. split; [exact E|]. intros c [(C1 & C2 & C3) Cl]. apply (flat_max _ _ (a0 - 1)).
      * apply desc_asc, C2.
      * rewrite !rev_length. lia.
      * rewrite !zsum_rev. lia.
      * apply desc_asc, P2.
      * apply Forall_rev. inversion_clear P2 as [|? ? _ P4]. constructor; [lia|]. rewrite Forall_forall in F, P4 |- *.
        intros y Hy. specialize (F y Hy). specialize (P4 y Hy). lia.
    + right. eexists. split; [exact E|].
      set (s := zsum (a0 :: u) - 1 - (x + 1) * len u).
      rewrite Ea in *. apply Forall_app in P1. destruct P1 as [P1 P1']. inversion_clear P1' as [|? ? Px Pv].
      destruct (SSorted_app_inv _ _ _ P2) as (P4 & P5 & P6). inversion_clear P5 as [|? ? P7 P8].
      rewrite zsum_app, (zsum_cons x) in P3. rewrite app_length in Pl. cbn [length] in Pl.
      assert (Hs : x + 1 <= s).
      { unfold s. rewrite zsum_cons. pose proof (zsum_lower (a0 - 1) u F).
        assert ((x + 1) * len u <= (a0 - 1) * len u) by (apply Z.mul_le_mono_nonneg_r; lia). lia. }
      assert (Hsum : s + (x + 1) * len u + 1 = zsum (a0 :: u)) by (unfold s; lia).
      clearbody s.
      split; [|split].
      * split.
        -- split; [|split].
           ++ apply Forall_app. split; [constructor; [lia|]; apply Forall_forall; intros y Hy; apply repeat_spec in Hy; lia|].
              constructor; [lia|exact Pv].
           ++ apply SSorted_app.
              ** constructor; [apply desc_repeat|]. apply Forall_forall. intros y Hy. apply repeat_spec in Hy. lia.
              ** constructor; [exact P7|]. eapply Forall_impl; [|exact P8]. intros y Hy. cbv beta in Hy. lia.
              ** intros y z Hy Hz. assert (x + 1 <= y) by (destruct Hy as [<-|Hy]; [lia|apply repeat_spec in Hy; lia]).
                 destruct Hz as [<-|Hz]; [lia|]. rewrite Forall_forall in P8. specialize (P8 z Hz). lia.
           ++ rewrite zsum_app, !zsum_cons, zsum_repeat. rewrite !zsum_cons in *. lia.
        -- rewrite app_length. cbn [length]. rewrite repeat_length. lia.
      * rewrite !rev_app_distr. cbn [rev]. rewrite <- !app_assoc. apply lexlt_app. cbn. left. lia.
      * intros c [(C1 & C2 & C3) Cl] Hlt Hlt'. apply desc_asc in C2. rewrite <- (zsum_rev c) in C3.
        apply Forall_rev in C1. rewrite <- (rev_length c) in Cl. remember (rev c) as d eqn:Ed. clear Ed c.
        rewrite rev_app_distr in Hlt, Hlt'. cbn [rev] in Hlt, Hlt'. rewrite <- !app_assoc in Hlt, Hlt'. cbn [app] in Hlt, Hlt'.
        destruct (lexlt_prefix (rev v) _ (x + 1 :: rev (repeat (x + 1) (length u)) ++ [s]) d Hlt) as [(d' & -> & Hd)|Hgt];
          [|exact (lexlt_irr _ (lexlt_trans _ _ _ Hlt' Hgt))].
        apply (proj1 (lexlt_app (rev v) _ _)) in Hlt'. apply Forall_app in C1. destruct C1 as [_ C1].
        destruct (SSorted_app_inv _ _ _ C2) as (_ & C4 & _). rewrite zsum_app, zsum_rev in C3.
        rewrite app_length, rev_length in Cl. destruct d' as [|y d']; [exact Hd|]. cbn [length] in Cl. rewrite zsum_cons in C3.
        inversion_clear C4 as [|? ? C5 C6]. cbn in Hd, Hlt'. destruct Hd as [Hd|[<- Hd]].
        -- destruct Hlt' as [Hlt'|[-> Hlt']]; [lia|].
           assert (ER : rev (repeat (x + 1) (length u)) = repeat (x + 1) (length u)).
           { generalize (length u) as k. induction k as [|k IH]; [reflexivity|]. cbn [repeat rev]. rewrite IH. apply repeat_snoc. }
           rewrite ER in Hlt'. apply (steep_min (length u) d' (x + 1) s); [exact C6|lia| |exact Hlt'].
           rewrite !zsum_cons in *. lia.
        -- change (rev u ++ [a0]) with (rev (a0 :: u)) in Hd.
           apply (flat_max (rev (a0 :: u)) d' (a0 - 1)); [exact C5|rewrite rev_length; cbn [length]; lia|rewrite zsum_rev; lia| | |exact Hd].
           ++ apply desc_asc, P4.
           ++ apply Forall_rev. inversion_clear P4 as [|? ? _ P9]. constructor; [lia|]. rewrite Forall_forall in F, P9 |- *.
              intros z Hz. specialize (F z Hz). specialize (P9 z Hz). lia.
  - split; [split; [|split]|].
    + constructor; [lia|]. apply Forall_forall. intros y Hy. apply repeat_spec in Hy. lia.
    + constructor; [apply desc_repeat|]. apply Forall_forall. intros y Hy. apply repeat_spec in Hy. lia.
    + rewrite zsum_cons, zsum_repeat. lia.
    + cbn [length]. rewrite repeat_length. lia.
  - intros c [(C1 & C2 & C3) Cl]. cbn [rev].
    assert (ER : rev (repeat 1 (Z.to_nat (m - 1))) = repeat 1 (Z.to_nat (m - 1))).
    { generalize (Z.to_nat (m - 1)) as k. induction k as [|k IH]; [reflexivity|]. cbn [repeat rev]. rewrite IH. apply repeat_snoc. }
    rewrite ER. apply steep_min; [apply Forall_rev, C1|rewrite rev_length; lia|rewrite zsum_rev; lia].
Qed.

(** ** Backtracking *)
Section Backtrack.
  Context (n : Z) (parts : list Z) (distinct : bool) (np : Z).
  Hypothesis Hpos : Forall (fun x => 1 <= x) parts.
  Hypothesis Hdec : StronglySorted (fun x y => y < x) parts.

  (** What may follow a part: a smaller one, or an equal one unless parts must be
      distinct and it is not the largest part. *)
  Definition may_follow (x y : Z) : Prop := y < x \/ (y = x /\ (distinct = false \/ x = hd 0 parts)).

  Definition completes (ps nu : Z) (allowed : Z -> Prop) (t : list Z) : Prop :=
    Forall (fun x => In x parts) t /\ StronglySorted may_follow t /\ (match t with [] => True | x :: _ => allowed x end) /\
    ps + zsum t = n /\ (np = 0 \/ nu + len t = np).

  Definition start_of (i : Z) : Z := if i =? 0 then 0 else i + (if distinct then 1 else 0).

  Lemma dec_nth i j : 0 <= i -> i < j -> j < len parts -> at_ parts j < at_ parts i.
  Proof.
    intros H1 H2 H3. clear Hpos. unfold at_. revert i j H1 H2 H3. induction Hdec as [|x l Hs IH Hf]; intros i j H1 H2 H3; [cbn in H3; lia|].
    cbn [length] in H3. destruct (Z.eq_dec i 0) as [->|Hi].
    - replace (Z.to_nat j) with (S (Z.to_nat (j - 1))) by lia. cbn [nth Z.to_nat]. rewrite Forall_forall in Hf. apply Hf, nth_In. lia.
    - replace (Z.to_nat j) with (S (Z.to_nat (j - 1))) by lia. replace (Z.to_nat i) with (S (Z.to_nat (i - 1))) by lia.
      cbn [nth]. apply IH; [exact Hs|lia|lia|lia].
  Qed.

  Lemma at_In i : 0 <= i < len parts -> In (at_ parts i) parts.
  Proof. intros H. apply nth_In. lia. Qed.

  Lemma In_at x : In x parts -> exists i, 0 <= i < len parts /\ at_ parts i = x.
  Proof. intros H. destruct (In_nth _ _ 0 H) as (k & Hk & E). exists (Z.of_nat k). split; [lia|]. unfold at_. rewrite Nat2Z.id. exact E. Qed.

  Lemma follow_idx i j : 0 <= i < len parts -> 0 <= j < len parts ->
    may_follow (at_ parts i) (at_ parts j) <-> start_of i <= j.
  Proof.
    intros Hi Hj. unfold may_follow, start_of.
    assert (H0 : hd 0 parts = at_ parts 0) by (destruct parts; reflexivity). rewrite H0.
    destruct (Z.lt_trichotomy i j) as [H|[->|H]].
    - pose proof (dec_nth i j ltac:(lia) H ltac:(lia)). destruct (Z.eqb_spec i 0); destruct distinct; lia.
    - destruct (Z.eqb_spec j 0) as [->|Hj0].
      + split; [lia|]. intros _. right. auto.
      + pose proof (dec_nth 0 j ltac:(lia) ltac:(lia) ltac:(lia)). destruct distinct; [|split; [lia|]; intros _; right; auto].
        split; [|lia]. intros [E|[_ [E|E]]]; [lia|discriminate|lia].
    - pose proof (dec_nth j i ltac:(lia) H ltac:(lia)). destruct (Z.eqb_spec i 0); [lia|]. destruct distinct; lia.
  Qed.

  Lemma may_follow_trans x y z : may_follow x y -> may_follow y z -> may_follow x z.
  Proof. unfold may_follow. intros [H1|[-> H1]] [H2|[-> H2]]; try (left; lia). right. auto. Qed.

  Lemma zsum_in t x : Forall (fun x => In x parts) t -> In x t -> x <= zsum t.
  Proof.
    intros H Hx. rewrite Forall_forall in H, Hpos. apply in_split in Hx. destruct Hx as (u & v & ->).
    rewrite zsum_app, zsum_cons. assert (0 <= zsum u /\ 0 <= zsum v); [|lia].
    split; [pose proof (zsum_ge_len u)|pose proof (zsum_ge_len v)];
      (enough (Forall (fun x => 1 <= x) u /\ Forall (fun x => 1 <= x) v) as [U V] by (try specialize (H0 U); try specialize (H0 V); lia));
      split; apply Forall_forall; intros y Hy; apply Hpos, H; apply in_or_app; cbn; auto.
  Qed.

  Lemma zsum_pos t : Forall (fun x => In x parts) t -> len t <= zsum t.
  Proof. intros H. apply zsum_ge_len. rewrite Forall_forall in *. auto. Qed.

  Lemma backtrack_ok : forall fuel ps used nu last, 0 <= ps -> (Z.to_nat (n - ps) <= fuel)%nat -> 0 <= last ->
    exists L, backtrack n parts distinct np fuel ps used nu last = Ret L /\ NoDup L /\
      forall u, In u L <-> exists t, u = used ++ t /\
        completes ps nu (fun x => exists i, start_of last <= i /\ 0 <= i < len parts /\ at_ parts i = x) t.
  Proof.
    induction fuel as [|f IH]; intros ps used nu last Hps Hf Hlast; cbn [backtrack].
    all: destruct (Z.eqb_spec ps n) as [->|Hne].
    1,3: exists (if (np =? 0) || (nu =? np) then [used] else []);
      split; [destruct ((np =? 0) || (nu =? np)); reflexivity|];
      split; [destruct ((np =? 0) || (nu =? np)); repeat constructor; intros []|];
      intros u; (split;
        [ destruct (Z.eqb_spec np 0); [|destruct (Z.eqb_spec nu np)]; cbn [orb In]; try tauto;
          intros [<-|[]]; exists []; rewrite app_nil_r; split; [reflexivity| |reflexivity|];
          (split; [constructor|]; split; [constructor|]; split; [exact I|]; split; [cbn; lia|]; cbn [length]; lia)
        | intros (t & -> & T1 & _ & _ & T4 & T5); pose proof (zsum_pos t T1) as Q;
          assert (t = []) by (destruct t; [reflexivity|cbn [length] in Q; lia]); subst t; rewrite app_nil_r; cbn [length] in T5;
          destruct (Z.eqb_spec np 0); [left; reflexivity|]; destruct (Z.eqb_spec nu np); [left; reflexivity|lia] ]).
    - destruct (Z.ltb_spec ps n); [lia|]. exists []. split; [reflexivity|]. split; [constructor|]. intros u. split; [intros []|].
      intros (t & -> & T1 & _ & _ & T4 & _). pose proof (zsum_pos t T1). lia.
    - destruct (Z.ltb_spec ps n) as [Hlt|Hge].
      2:{ exists []. split; [reflexivity|]. split; [constructor|]. intros u. split; [intros []|].
          intros (t & -> & T1 & _ & _ & T4 & _). pose proof (zsum_pos t T1). lia. }
      destruct (negb (np =? 0) && (nu >=? np)) eqn:Enp.
      { exists []. split; [reflexivity|]. split; [constructor|]. intros u. split; [intros []|].
        intros (t & -> & T1 & _ & _ & T4 & T5). apply andb_true_iff in Enp. destruct Enp as [B1 B2].
        apply negb_true_iff, Z.eqb_neq in B1. apply Z.geb_le in B2. assert (t <> []) by (intros ->; cbn in T4; lia).
        destruct t; [congruence|]. cbn [length] in T5. lia. }
      fold (start_of last).
      set (body := fun (acc : list (list Z)) (i : Z) =>
        do part <- pyget parts i;
        do l <- backtrack n parts distinct np f (ps + part) (used ++ [part]) (nu + 1) i;
        Ret (acc ++ l)).
      assert (Hst : 0 <= start_of last) by (unfold start_of; destruct (last =? 0); destruct distinct; lia).
      assert (LOOP : forall k acc, 0 <= k <= len parts -> exists L, foldM body (zrange k (len parts)) acc = Ret (acc ++ L) /\ NoDup L /\
        forall u, In u L <-> exists i t, k <= i < len parts /\ u = used ++ at_ parts i :: t /\
          completes (ps + at_ parts i) (nu + 1) (fun x => exists j, start_of i <= j /\ 0 <= j < len parts /\ at_ parts j = x) t).
      { intros k. remember (Z.to_nat (len parts - k)) as m eqn:Hm. revert k Hm. induction m as [|m IHm]; intros k Hm acc Hk.
        - rewrite zrange_nil by lia. exists []. rewrite app_nil_r. split; [reflexivity|]. split; [constructor|].
          intros u. split; [intros []|]. intros (i & t & Hi & _). lia.
        - rewrite zrange_cons by lia. cbn [foldM]. unfold body at 1. rewrite pyget_at by lia. cbn [bind].
          assert (Hp : 1 <= at_ parts k) by (rewrite Forall_forall in Hpos; apply Hpos, at_In; lia).
          destruct (IH (ps + at_ parts k) (used ++ [at_ parts k]) (nu + 1) k) as (L1 & E1 & N1 & I1); [lia|lia|lia|].
          rewrite E1. cbn [bind]. destruct (IHm (k + 1) ltac:(lia) (acc ++ L1) ltac:(lia)) as (L2 & E2 & N2 & I2).
          exists (L1 ++ L2). rewrite app_assoc. split; [exact E2|]. split.
          + apply NoDup_app_intro; [exact N1|exact N2|]. intros u H1 H2. apply I1 in H1. apply I2 in H2.
            destruct H1 as (t & -> & _). destruct H2 as (i & t' & Hi & E & _). rewrite <- app_assoc in E. apply app_inv_head in E.
            cbn in E. injection E as E _. pose proof (dec_nth k i ltac:(lia) ltac:(lia) ltac:(lia)). lia.
          + intros u. rewrite in_app_iff, I1, I2. split.
            * intros [(t & -> & T)|(i & t & Hi & T)]; [exists k, t|exists i, t]; (split; [lia|]).
              -- rewrite <- app_assoc. split; [reflexivity|exact T].
              -- exact T.
            * intros (i & t & Hi & -> & T). destruct (Z.eq_dec i k) as [->|Hik]; [left; exists t|right; exists i, t].
              -- rewrite <- app_assoc. split; [reflexivity|exact T].
              -- split; [lia|]. split; [reflexivity|exact T]. }
      assert (KEY : exists L, foldM body (zrange (start_of last) (len parts)) [] = Ret L /\ NoDup L /\
        forall u, In u L <-> exists i t, start_of last <= i < len parts /\ u = used ++ at_ parts i :: t /\
          completes (ps + at_ parts i) (nu + 1) (fun x => exists j, start_of i <= j /\ 0 <= j < len parts /\ at_ parts j = x) t).
      { destruct (Z.le_gt_cases (start_of last) (len parts)) as [Hle|Hgt].
        - destruct (LOOP (start_of last) [] ltac:(lia)) as (L & E & R). exists L. split; [exact E|exact R].
        - rewrite zrange_nil by lia. exists []. split; [reflexivity|]. split; [constructor|]. intros u. split; [intros []|].
          intros (i & t & Hi & _). lia. }
      destruct KEY as (L & E & N & I). exists L. split; [exact E|]. split; [exact N|]. intros u. rewrite I. split.
      + intros (i & t & Hi & -> & T1 & T2 & T3 & T4 & T5). exists (at_ parts i :: t). split; [reflexivity|].
        split; [constructor; [apply at_In; lia|exact T1]|]. split; [|split; [|split]].
        * constructor; [exact T2|]. destruct t as [|y t]; [constructor|]. destruct T3 as (j & Hj1 & Hj2 & <-).
          assert (Hf1 : may_follow (at_ parts i) (at_ parts j)) by (apply follow_idx; lia).
          constructor; [exact Hf1|]. inversion_clear T2 as [|? ? _ T6]. eapply Forall_impl; [|exact T6].
          intros z Hz. exact (may_follow_trans _ _ _ Hf1 Hz).
        * exists i. split; [lia|]. split; [lia|reflexivity].
        * rewrite zsum_cons. lia.
        * cbn [length]. lia.
      + intros (t & -> & T1 & T2 & T3 & T4 & T5). destruct t as [|x t]; [cbn in T4; lia|].
        destruct T3 as (i & Hi1 & Hi2 & <-). inversion_clear T1 as [|? ? _ T1']. inversion_clear T2 as [|? ? T2' T6].
        rewrite zsum_cons in T4. cbn [length] in T5. exists i, t. split; [lia|]. split; [reflexivity|].
        split; [exact T1'|]. split; [exact T2'|]. split; [|split; lia].
        destruct t as [|y t]; [exact Logic.I|]. inversion_clear T1' as [|? ? Hy _]. apply In_at in Hy. destruct Hy as (j & Hj & <-).
        inversion_clear T6 as [|? ? T7 _]. exists j. split; [|auto]. apply follow_idx; assumption.
  Qed.

  Theorem backtrack_enum fuel : (Z.to_nat n <= fuel)%nat ->
    exists L, backtrack n parts distinct np fuel 0 [] 0 0 = Ret L /\ NoDup L /\
      forall u, In u L <-> Forall (fun x => In x parts) u /\ StronglySorted may_follow u /\ zsum u = n /\ (np = 0 \/ len u = np).
  Proof.
    intros Hf. destruct (backtrack_ok fuel 0 [] 0 0) as (L & E & N & I); [lia|rewrite Z.sub_0_r; exact Hf|lia|].
    exists L. split; [exact E|]. split; [exact N|]. intros u. rewrite I. split.
    - intros (t & -> & T1 & T2 & _ & T4 & T5). cbn [app]. split; [exact T1|]. split; [exact T2|]. lia.
    - intros (T1 & T2 & T3 & T4). exists u. split; [reflexivity|]. split; [exact T1|]. split; [exact T2|]. split; [|split; lia].
      destruct u as [|x u]; [exact Logic.I|]. inversion_clear T1 as [|? ? Hx _]. apply In_at in Hx. destruct Hx as (i & Hi & E1).
      exists i. split; [|auto]. cbn. lia.
  Qed.
End Backtrack.
