(** * Proofs about the generation of integer partitions: algorithms P and H *)
From Coq Require Import ZArith List Lia Bool Sorting.Sorted Sorting.Permutation.
From Verif Require Import Base Lists Lists2 Gen Lex Perm_Proofs Part_Model.
Import ListNotations.
Open Scope Z_scope.

(** Partitions of n: nonincreasing lists of positive integers with sum n. *)
Definition is_partition (n : Z) (a : list Z) : Prop :=
  Forall (fun x => 1 <= x) a /\ desc a /\ zsum a = n.

Lemma zsum_app u v : zsum (u ++ v) = zsum u + zsum v.
Proof. unfold zsum. induction u as [|x u IH]; cbn [app fold_right]; [|rewrite IH]; lia. Qed.
Lemma zsum_cons x v : zsum (x :: v) = x + zsum v.
Proof. reflexivity. Qed.
Lemma zsum_repeat x k : zsum (repeat x k) = x * Z.of_nat k.
Proof. induction k as [|k IH]; [cbn; lia|]. cbn [repeat]. rewrite zsum_cons, IH. lia. Qed.

Lemma zsum_ge_len a : Forall (fun x => 1 <= x) a -> len a <= zsum a.
Proof. induction 1 as [|x a Hx _ IH]; [cbn; lia|]. cbn [length]. rewrite zsum_cons. lia. Qed.

Lemma zsum_rev a : zsum (rev a) = zsum a.
Proof. induction a as [|x a IH]; [reflexivity|]. cbn [rev]. rewrite zsum_app, zsum_cons, IH, zsum_cons. cbn. lia. Qed.

Lemma lexlt_prefix_l p : forall a b c, lexlt c (p ++ a) -> (exists d, c = p ++ d /\ lexlt d a) \/ lexlt c (p ++ b).
Proof.
  induction p as [|x p IH]; intros a b c H.
  - left. exists c. auto.
  - destruct c as [|y c]; [right; exact I|]. cbn in H. destruct H as [H|[-> H]]; [right; cbn; auto|].
    destruct (IH a b c H) as [(d & -> & Hd)|Hc]; [left; exists d; auto|right; cbn; auto].
Qed.

Lemma partition_words n a : is_partition n a -> In a (words (zrange 1 (n + 1)) (Z.to_nat n)).
Proof.
  intros (H1 & _ & H3). pose proof (zsum_ge_len a H1). apply words_In; [lia|].
  intros x Hx. apply zrange_In. apply in_split in Hx. destruct Hx as (u & v & ->). apply Forall_app in H1.
  destruct H1 as [Hu Hv]. inversion_clear Hv as [|? ? Hx Hv']. rewrite zsum_app, zsum_cons in H3.
  pose proof (zsum_ge_len u Hu). pose proof (zsum_ge_len v Hv'). lia.
Qed.

(** The lexicographically largest list of positive parts at most r. *)
Lemma greedy_max r : 1 <= r -> forall k m d, 1 <= m <= r -> Forall (fun x => 1 <= x <= r) d ->
  zsum d = r * Z.of_nat k + m -> ~ lexlt (repeat r k ++ [m]) d.
Proof.
  intros Hr. induction k as [|k IH]; intros m d Hm Hf Hs.
  - cbn. destruct d as [|y d]; [auto|]. rewrite zsum_cons in Hs. inversion_clear Hf as [|? ? Hy Hd].
    change (Z.of_nat 0) with 0 in Hs. rewrite Z.mul_0_r in Hs.
    assert (len d <= zsum d) by (apply zsum_ge_len; eapply Forall_impl; [|exact Hd]; intros z Hz; cbv beta in Hz; lia).
    intros [H1|[? H1]]; [lia|]. destruct d; [exact H1|]. cbn [length] in *. lia.
  - cbn [repeat app]. destruct d as [|y d]; [cbn; auto|]. inversion_clear Hf as [|? ? Hy Hd]. rewrite zsum_cons in Hs.
    intros [H1|[-> H1]]; [lia|]. apply (IH m d Hm Hd); [lia|exact H1].
Qed.

Lemma ones_min : forall k d, Forall (fun x => 1 <= x) d -> zsum d = Z.of_nat k -> ~ lexlt d (repeat 1 k).
Proof.
  induction k as [|k IH]; intros d Hf Hs; [destruct d; cbn; auto|]. cbn [repeat]. destruct d as [|y d]; [cbn in Hs; lia|].
  inversion_clear Hf. rewrite zsum_cons in Hs. intros [H1|[-> H1]]; [lia|]. apply (IH d); [assumption|lia|exact H1].
Qed.

Lemma p_fill_ok r : 1 <= r -> forall fuel N q g, 1 <= N <= len g -> (Z.to_nat N <= fuel)%nat ->
  exists k m g', N = r * Z.of_nat k + m /\ 1 <= m <= r /\ len g = Z.of_nat k + 1 + len g' /\
    p_fill fuel r (q ++ g) (len q) N = Ret (q ++ repeat r k ++ m :: g', len q + Z.of_nat k, m).
Proof.
  intros Hr. induction fuel as [|f IH]; intros N q g HN Hf; [lia|]. cbn [p_fill].
  destruct g as [|y g]; [cbn [length] in HN; lia|]. cbn [length] in HN.
  destruct (Z.gtb_spec N r).
  - rewrite pyset_mid by lia. cbn [bind].
    replace (q ++ r :: g) with ((q ++ [r]) ++ g) by (rewrite <- app_assoc; reflexivity).
    replace (len q + 1) with (len (q ++ [r])) by (rewrite app_length; cbn [length]; lia).
    destruct (IH (N - r) (q ++ [r]) g) as (k & m & g' & E1 & E2 & E3 & E4); [lia|lia|].
    exists (S k), m, g'. split; [lia|]. split; [exact E2|]. split; [cbn [length]; lia|]. rewrite E4, <- app_assoc.
    rewrite app_length. cbn [repeat app length]. do 3 f_equal. lia.
  - exists 0%nat, N, g. split; [lia|]. split; [lia|]. split; [cbn [length]; lia|].
    rewrite pyset_mid by lia. cbn [bind repeat app]. do 3 f_equal. lia.
Qed.

Definition p_inv (n : Z) (st : list Z * Z * Z) : Prop :=
  let '(a, last, idx) := st in len a = n /\
  ((exists p x k g, a = p ++ x :: repeat 1 k ++ g /\ 2 <= x /\ last = len p + Z.of_nat k /\ idx = len p /\
      is_partition n (p ++ x :: repeat 1 k)) \/
   (a = repeat 1 (Z.to_nat n) /\ last = n - 1 /\ idx = -1)).

Lemma firstn_exact {A} (u v : list A) k : k = length u -> firstn k (u ++ v) = u.
Proof. intros ->. rewrite firstn_app, firstn_all, Nat.sub_diag. cbn. apply app_nil_r. Qed.

Lemma desc_repeat x k : desc (repeat x k).
Proof. unfold desc. induction k; cbn; constructor; auto. apply Forall_forall. intros y Hy. apply repeat_spec in Hy. lia. Qed.

Lemma repeat_snoc {A} (x : A) k : repeat x k ++ [x] = repeat x (S k).
Proof. induction k; [reflexivity|]. cbn [repeat app]. rewrite IHk. reflexivity. Qed.

Theorem algorithm_p_enum n : 1 <= n -> exists L, yields (algorithm_p n) L /\
  StronglySorted (fun a b => lexlt b a) L /\ (forall a, In a L <-> is_partition n a).
Proof.
  intros Hn. unfold algorithm_p.
  assert (E0 : pyset (repeat 0 (Z.to_nat n)) 0 n = Ret (n :: repeat 0 (Z.to_nat (n - 1)))).
  { replace (Z.to_nat n) with (S (Z.to_nat (n - 1))) by lia. reflexivity. }
  rewrite E0.
  apply (gen_enum p_visit p_next (is_partition n) (words (zrange 1 (n + 1)) (Z.to_nat n)) (p_inv n) (fun a b => lexlt b a)).
  - apply partition_words.
  - apply lexlt_irr.
  - intros a b c H1 H2. exact (lexlt_trans _ _ _ H2 H1).
  - intros a b _ _. destruct (lexlt_tot a b) as [|[|]]; auto.
  - intros [[a last] idx] [Ha [(p & x & k & g & E & Hx & El & Ei & HP)|(E & El & Ei)]]; unfold p_visit.
    + rewrite E. replace (p ++ x :: repeat 1 k ++ g) with ((p ++ x :: repeat 1 k) ++ g) by (rewrite <- app_assoc; reflexivity).
      rewrite firstn_exact; [exact HP|]. rewrite app_length. cbn [length]. rewrite repeat_length. lia.
    + rewrite firstn_all2 by lia. subst a. split; [apply Forall_forall; intros y Hy; apply repeat_spec in Hy; lia|].
      split; [apply desc_repeat|]. rewrite zsum_repeat. lia.
  - intros [[a last] idx] [Ha [(p & x & k & g & E & Hx & El & Ei & HP)|(E & El & Ei)]].
    2:{ left. unfold p_next. rewrite Ei. cbn. split; [reflexivity|]. intros d (D1 & _ & D3). subst a.
        rewrite firstn_all2 by lia. apply ones_min; [exact D1|lia]. }
    right.
    assert (V : p_visit (a, last, idx) = p ++ x :: repeat 1 k).
    { unfold p_visit. rewrite E. replace (p ++ x :: repeat 1 k ++ g) with ((p ++ x :: repeat 1 k) ++ g) by (rewrite <- app_assoc; reflexivity).
      apply firstn_exact. rewrite app_length. cbn [length]. rewrite repeat_length. lia. }
    rewrite V. destruct HP as (P1 & P2 & P3).
    rewrite zsum_app, zsum_cons, zsum_repeat in P3.
    apply Forall_app in P1. destruct P1 as [P1 P1']. destruct (SSorted_app_inv _ _ _ P2) as (P4 & P5 & P6).
    pose proof (zsum_ge_len p P1) as Q1.
    rewrite E, app_length in Ha. cbn [length] in Ha. rewrite app_length, repeat_length in Ha.
    assert (SUCC : forall K m, 1 <= m <= x - 1 -> (x - 1) * Z.of_nat (S K) + m = x + Z.of_nat k ->
      is_partition n (p ++ repeat (x - 1) (S K) ++ [m]) /\ lexlt (p ++ repeat (x - 1) (S K) ++ [m]) (p ++ x :: repeat 1 k) /\
      forall c, is_partition n c -> lexlt c (p ++ x :: repeat 1 k) -> ~ lexlt (p ++ repeat (x - 1) (S K) ++ [m]) c).
    { intros K m Hm Hs. split; [|split].
      - split; [|split].
        + apply Forall_app. split; [exact P1|]. apply Forall_app. split; [|repeat constructor; lia].
          apply Forall_forall. intros y Hy. apply repeat_spec in Hy. lia.
        + apply SSorted_app; [exact P4| |].
          * apply SSorted_app; [apply desc_repeat|repeat constructor|]. intros u v Hu [<-|[]]. apply repeat_spec in Hu. lia.
          * intros u v Hu Hv. specialize (P6 u x Hu (or_introl eq_refl)). apply in_app_iff in Hv.
            destruct Hv as [Hv|[<-|[]]]; [apply repeat_spec in Hv|]; lia.
        + rewrite !zsum_app, zsum_repeat. cbn [zsum fold_right]. lia.
      - apply lexlt_app. cbn. left. lia.
      - intros c (C1 & C2 & C3) Hlt Hgt.
        destruct (lexlt_prefix_l p _ (repeat (x - 1) (S K) ++ [m]) c Hlt) as [(d & -> & Hd)|Hc];
          [|exact (lexlt_irr _ (lexlt_trans _ _ _ Hc Hgt))].
        apply (proj1 (lexlt_app p _ _)) in Hgt. rewrite zsum_app in C3. apply Forall_app in C1. destruct C1 as [_ C1].
        destruct (SSorted_app_inv _ _ _ C2) as (_ & C4 & _).
        apply (greedy_max (x - 1) ltac:(lia) (S K) m d Hm); [|lia|exact Hgt].
        destruct d as [|y d]; [constructor|]. inversion_clear C1 as [|? ? C5 C6]. inversion_clear C4 as [|? ? C7 C8].
        assert (y <= x - 1).
        { cbn in Hd. destruct Hd as [Hd|[-> Hd]]; [lia|]. exfalso. rewrite zsum_cons in C3.
          apply (ones_min k d C6); [lia|exact Hd]. }
        constructor; [lia|]. rewrite Forall_forall in C6, C8 |- *. intros z Hz. specialize (C6 z Hz). specialize (C8 z Hz). lia. }
    unfold p_next. rewrite Ei. destruct (Z.ltb_spec (len p) 0); [lia|]. rewrite E, pyget_mid by lia. cbn [bind].
    destruct (Z.eqb_spec x 2) as [->|Hx2].
    + rewrite pyset_mid by lia. cbn [bind]. destruct g as [|y g]; [cbn [length] in Ha; lia|].
      replace (p ++ 1 :: repeat 1 k ++ y :: g) with ((p ++ 1 :: repeat 1 k) ++ y :: g) by (rewrite <- app_assoc; reflexivity).
      rewrite pyset_mid by (rewrite app_length; cbn [length]; rewrite repeat_length; lia). cbn [bind].
      eexists. split; [reflexivity|].
      assert (EV : (p ++ 1 :: repeat 1 k) ++ 1 :: g = (p ++ repeat 1 (S k) ++ [1]) ++ g).
      { rewrite <- !app_assoc. reflexivity. }
      destruct (SUCC k 1) as (S1 & S2 & S3); [lia|lia|]. change (2 - 1) with 1 in S1, S2, S3.
      assert (V' : p_visit ((p ++ 1 :: repeat 1 k) ++ 1 :: g, last + 1, len p - 1) = p ++ repeat 1 (S k) ++ [1]).
      { unfold p_visit. rewrite EV. apply firstn_exact. rewrite !app_length, repeat_length. cbn [length]. lia. }
      rewrite V'. split; [|split; [exact S2|exact S3]].
      split; [rewrite EV, !app_length, repeat_length; cbn [length] in *; lia|].
      destruct p as [|y0 p0] eqn:Ep.
      * right. change (zsum []) with 0 in *. cbn [length] in *. assert (g = []) by (destruct g; [reflexivity|cbn [length] in *; lia]). subst g.
        split; [|lia]. cbn [app]. change (1 :: repeat 1 k ++ [1]) with (repeat 1 (S k) ++ [1]). rewrite repeat_snoc.
        f_equal. change (zsum []) with 0 in P3. lia.
      * rewrite <- Ep in *. assert (Hne : p <> []) by congruence. clear Ep y0 p0.
        destruct (exists_last Hne) as (p' & z & ->). left. exists p', z, (S (S k)), g.
        assert (Hz : 2 <= z) by (apply (P6 z 2); [apply in_or_app; right; left; reflexivity|left; reflexivity]).
        rewrite app_length in *. cbn [length] in *. rewrite <- repeat_snoc.
        split; [rewrite <- !app_assoc; reflexivity|]. split; [exact Hz|]. split; [lia|]. split; [lia|].
        rewrite <- app_assoc in S1. exact S1.
    + rewrite pyset_mid by lia. cbn [bind].
      replace (p ++ x - 1 :: repeat 1 k ++ g) with ((p ++ [x - 1]) ++ repeat 1 k ++ g) by (rewrite <- app_assoc; reflexivity).
      replace (len p + 1) with (len (p ++ [x - 1])) by (rewrite app_length; cbn [length]; lia).
      replace (last - len p + 1) with (Z.of_nat k + 1) by lia.
      destruct (p_fill_ok (x - 1) ltac:(lia) (Z.to_nat (Z.of_nat k + 1)) (Z.of_nat k + 1) (p ++ [x - 1]) (repeat 1 k ++ g)) as
        (K & m & g' & F1 & F2 & F3 & F4).
      { rewrite app_length, repeat_length. nia. }
      { lia. }
      rewrite F4. cbn [bind]. eexists. split; [reflexivity|].
      destruct (SUCC K m) as (S1 & S2 & S3); [lia|lia|].
      assert (EV : (p ++ [x - 1]) ++ repeat (x - 1) K ++ m :: g' = (p ++ repeat (x - 1) (S K) ++ [m]) ++ g').
      { rewrite <- !app_assoc. reflexivity. }
      rewrite app_length. cbn [length].
      match goal with |- context [p_visit (_, ?l, ?i)] =>
        assert (V' : p_visit ((p ++ [x - 1]) ++ repeat (x - 1) K ++ m :: g', l, i) = p ++ repeat (x - 1) (S K) ++ [m]) end.
      { unfold p_visit. rewrite EV. apply firstn_exact. rewrite !app_length, repeat_length. cbn [length]. lia. }
      rewrite V'. split; [|split; [exact S2|exact S3]].
      rewrite app_length, repeat_length in F3.
      split; [rewrite EV, !app_length, repeat_length; cbn [length]; lia|]. left. rewrite EV.
      destruct (Z.eqb_spec m 1) as [->|Hm].
      * exists (p ++ repeat (x - 1) K), (x - 1), 1%nat, g'. rewrite <- repeat_snoc in *.
        split; [rewrite <- !app_assoc; reflexivity|]. split; [lia|]. rewrite app_length, repeat_length.
        split; [lia|]. split; [lia|]. rewrite <- !app_assoc in *. exact S1.
      * exists (p ++ repeat (x - 1) (S K)), m, 0%nat, g'. split; [rewrite <- !app_assoc; reflexivity|]. split; [lia|].
        rewrite app_length, repeat_length. split; [lia|]. split; [lia|]. rewrite <- !app_assoc in *. exact S1.
  - split; [cbn [length]; rewrite repeat_length; lia|]. destruct (Z.eqb_spec n 1) as [->|Hn1].
    + right. split; [reflexivity|]. split; reflexivity.
    + left. exists [], n, 0%nat, (repeat 0 (Z.to_nat (n - 1))). split; [reflexivity|]. split; [lia|]. split; [reflexivity|].
      split; [reflexivity|]. cbn [app repeat]. split; [repeat constructor; lia|]. split; [repeat constructor|]. cbn. lia.
  - intros c Hc. replace (p_visit (n :: repeat 0 (Z.to_nat (n - 1)), 0, 0 - (if n =? 1 then 1 else 0))) with [n] by reflexivity.
    destruct Hc as (C1 & C2 & C3). destruct c as [|y c]; [cbn; auto|]. inversion_clear C1 as [|? ? C4 C5].
    rewrite zsum_cons in C3. pose proof (zsum_ge_len c C5). intros [H1|[-> H1]]; [lia|].
    destruct c; [exact H1|]. cbn [length] in *. lia.
Qed.
