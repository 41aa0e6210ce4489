(** * Proofs about the sudoku solver: reading the cover back *)
From Coq Require Import ZArith List Bool Lia Permutation.
From Verif Require Import Base Py Dict Lists2 AlgX_Model AlgX_Spec AlgX_Proofs Sud_Spec Sud_Model Sud_Proofs Sud_Proofs2.
Import ListNotations.
Open Scope Z_scope.

Definition has (x : Z) (l : list Z) : bool := existsb (Z.eqb x) l.

Lemma read_fold r c d l : ok3 (r, c, d) -> (forall x, In x l -> In x (ents (r, c, d))) -> forall r0 c0 d0,
  fold_left read_entry l (r0, c0, d0) =
    ((if has (code 0 r c) l then Some r else r0), (if has (code 0 r c) l then Some c else c0), (if has (code 2 d c) l then Some d else d0)).
Proof.
  intros (R & C & D). pose proof (block_range r c R C) as B. unfold dig in B.
  induction l as [|x l IH]; intros H r0 c0 d0; [reflexivity|]. cbn [fold_left has existsb]. fold (has (code 0 r c) l). fold (has (code 2 d c) l).
  assert (Hl : forall y, In y l -> In y (ents (r, c, d))) by (intros y Iy; apply H; right; exact Iy).
  specialize (IH Hl). specialize (H x (or_introl eq_refl)). cbn [ents In] in H.
  assert (E : exists k a b, x = code k a b /\ read_entry (r0, c0, d0) x = (if k =? 0 then (Some r, Some c, d0) else if k =? 2 then (r0, c0, Some d) else (r0, c0, d0)) /\
    (code 0 r c =? x) = (k =? 0) /\ (code 2 d c =? x) = (k =? 2)).
  { assert (Q : forall k a b, 0 <= k -> dig a -> dig b -> (k = 0 -> a = r /\ b = c) -> (k = 2 -> a = d /\ b = c) -> x = code k a b ->
      read_entry (r0, c0, d0) x = (if k =? 0 then (Some r, Some c, d0) else if k =? 2 then (r0, c0, Some d) else (r0, c0, d0)) /\
      (code 0 r c =? x) = (k =? 0) /\ (code 2 d c =? x) = (k =? 2)).
    { intros k a b Hk Ha Hb K0 K2 ->. destruct (code_decode k a b Hk Ha Hb) as (E1 & E2 & E3). unfold read_entry. rewrite E1, E2, E3. split; [|split].
      - destruct (Z.eqb_spec k 0) as [K|K]; [destruct (K0 K); subst; reflexivity|]. destruct (Z.eqb_spec k 2) as [K'|K']; [destruct (K2 K'); subst; reflexivity|reflexivity].
      - destruct (Z.eqb_spec k 0) as [K|K]; [destruct (K0 K); subst; apply Z.eqb_refl|]. apply Z.eqb_neq. intros J. apply code_inj in J; unfold dig in *; lia.
      - destruct (Z.eqb_spec k 2) as [K|K]; [destruct (K2 K); subst; apply Z.eqb_refl|]. apply Z.eqb_neq. intros J. apply code_inj in J; unfold dig in *; lia. }
    destruct H as [H|[H|[H|[H|[]]]]]; do 3 eexists; (split; [symmetry; exact H|]); apply Q with (6 := eq_sym H); unfold dig; lia. }
  destruct E as (k & a & b & _ & E1 & E2 & E3). rewrite E1, E2, E3. destruct (Z.eqb_spec k 0) as [->|K0].
  - cbn [orb Z.eqb]. rewrite IH. destruct (has (code 0 r c) l); reflexivity.
  - destruct (Z.eqb_spec k 2) as [->|K2]; cbn [orb]; rewrite IH; [|reflexivity]. destruct (has (code 2 d c) l); reflexivity.
Qed.

Lemma read_entry_ok r c d l st : ok3 (r, c, d) -> Permutation l (ents (r, c, d)) -> fold_left read_entry l st = (Some r, Some c, Some d).
Proof.
  intros O P. destruct st as ((r0, c0), d0). rewrite (read_fold r c d l O (fun x Ix => Permutation_in _ P Ix)).
  assert (Q : forall x, In x (ents (r, c, d)) -> has x l = true) by (intros x Ix; unfold has; apply existsb_exists; exists x; split; [apply (Permutation_in _ (Permutation_sym P)), Ix|apply Z.eqb_refl]).
  rewrite !Q; [reflexivity|cbn; tauto..].
Qed.

Definition write_loop (sol : list (list Z)) (M : list (list Z)) : outcome (list (list Z) * (option Z * option Z * option Z)) :=
  foldM (fun '(M, st) entry =>
            let '(r, c, d) := fold_left read_entry entry st in
            match r, c, d with
            | Some r', Some c', Some d' => do M <- mset M r' c' d'; Ret (M, (r, c, d))
            | _, _, _ => Raise UnboundLocalError
            end) sol (M, (None, None, None)).

Lemma write_ok eord T M : (forall l, Permutation (eord l) l) -> grid M -> (forall t, In t T -> ok3 t) ->
  exists M' st, write_loop (map (fun t => eord (ents t)) T) M = Ret (M', st) /\ grid M' /\
    forall r c, 0 <= r < 9 -> 0 <= c < 9 -> In (r, c, mget M' r c) T \/ ((forall d, ~ In (r, c, d) T) /\ mget M' r c = mget M r c).
Proof.
  intros He G. unfold write_loop. generalize (None : option Z, None : option Z, None : option Z). revert M G.
  induction T as [|t T IH]; intros M G st HT.
  - exists M, st. split; [reflexivity|]. split; [exact G|]. intros r c _ _. right. split; [intros d []|reflexivity].
  - destruct t as ((r, c), d). cbn [map foldM]. pose proof (HT _ (or_introl eq_refl)) as O. rewrite (read_entry_ok r c d _ st O (He _)).
    destruct O as (R & C & D). destruct (mset_ok M r c d G R C) as (M1 & E1 & G1 & H1). rewrite E1. cbn [bind].
    destruct (IH M1 G1 (Some r, Some c, Some d)) as (M' & st' & E & G' & H'); [intros; apply HT; right; assumption|].
    exists M', st'. split; [exact E|]. split; [exact G'|]. intros r' c' R' C'. destruct (H' r' c' R' C') as [K|(K1 & K2)]; [left; right; exact K|].
    rewrite K2, (H1 r' c' R' C'). destruct (Z.eqb_spec r' r) as [->|N]; cbn [andb]; [destruct (Z.eqb_spec c' c) as [->|N]|].
    + left. left. reflexivity.
    + right. split; [|reflexivity]. intros d' [J|J]; [congruence|apply (K1 d' J)].
    + right. split; [|reflexivity]. intros d' [J|J]; [congruence|apply (K1 d' J)].
Qed.

(** Positions and (row, column) pairs. *)
Lemma pos_div r c : 0 <= c < 9 -> (9 * r + c) / 9 = r /\ (9 * r + c) mod 9 = c.
Proof. intros H. split; [symmetry; apply (Z.div_unique _ 9 r c); lia|symmetry; apply (Z.mod_unique _ 9 r c); lia]. Qed.

Lemma peers_iff i j : 0 <= i < 81 -> 0 <= j < 81 ->
  (peers i j <-> (i / 9, i mod 9) <> (j / 9, j mod 9) /\ (i / 9 = j / 9 \/ i mod 9 = j mod 9 \/ block (i / 9) (i mod 9) = block (j / 9) (j mod 9))).
Proof.
  intros Hi Hj. destruct (pos_split i Hi) as (R & C & E), (pos_split j Hj) as (R' & C' & E'). unfold peers, block.
  assert (D : forall k, k / 27 = (k / 9) / 3) by (intros k; rewrite Z.div_div by lia; reflexivity). rewrite !D.
  assert (N : i <> j <-> (i / 9, i mod 9) <> (j / 9, j mod 9)). { split; [intros N Q; injection Q as Q1 Q2; apply N; rewrite E, E', Q1, Q2; reflexivity|intros N ->; apply N; reflexivity]. }
  rewrite N. pose proof (Z.div_mod (i mod 9) 3 ltac:(lia)). pose proof (Z.mod_pos_bound (i mod 9) 3 ltac:(lia)). pose proof (Z.div_mod (j mod 9) 3 ltac:(lia)). pose proof (Z.mod_pos_bound (j mod 9) 3 ltac:(lia)).
  generalize dependent (i / 9 / 3). generalize dependent (j / 9 / 3). generalize dependent (i mod 9 / 3). generalize dependent (j mod 9 / 3). intros. 
  split; (intros (A1 & A2); split; [exact A1|]); destruct A2 as [A2|[A2|A2]]; auto; right; right; lia.
Qed.

Lemma parse_long a : (length a > 81)%nat -> parse a = Raise IndexError.
Proof.
  intros L. unfold parse.
  assert (G : forall b k M, 0 <= k <= 81 -> k + Z.of_nat (length b) > 81 -> grid M ->
    foldM (fun M '(i, d) => mset M (i / 9) (i mod 9) d) (combine (zrange k (k + Z.of_nat (length b))) b) M = Raise IndexError).
  { clear. induction b as [|d b IH]; intros k M Hk Hl G; cbn [length] in Hl; [lia|]. cbn [length]. rewrite zrange_cons by lia. cbn [combine foldM].
    destruct (Z.eq_dec k 81) as [->|N].
    - assert (E : mset M (81 / 9) (81 mod 9) d = Raise IndexError); [|rewrite E; reflexivity]. unfold mset. destruct G as (G1 & _). unfold pyget, pyidx. rewrite G1. reflexivity.
    - destruct (pos_split k ltac:(lia)) as (A & B & E). destruct (mset_ok M (k / 9) (k mod 9) d G A B) as (M1 & E1 & G1 & _). rewrite E1. cbn [bind].
      rewrite <- (IH (k + 1) M1 ltac:(lia) ltac:(lia) G1). do 2 f_equal. f_equal. lia. }
  apply (G a 0); [lia|lia|apply grid0].
Qed.

(** The union of the vectors. *)
Lemma fold_sadd_In l : forall acc x, In x (fold_left sadd l acc) <-> In x acc \/ In x l.
  Proof.
    induction l as [|y l IH]; intros acc x; cbn [fold_left]; [cbn; tauto|]. rewrite IH. cbn [In].
    rewrite sadd_In. intuition.
  Qed.

Lemma fold_union_In V : forall acc x, In x (fold_left (fun acc v => fold_left sadd v acc) V acc) <-> In x acc \/ exists v, In v V /\ In x v.
  Proof.
    induction V as [|v V IH]; intros acc x; cbn [fold_left].
    - split; [auto|]. intros [J|(v & [] & _)]. exact J.
    - rewrite IH. pose proof (fold_sadd_In v acc x) as Q. cbn [In]. split.
      + intros [J|(w & Iw & Jw)]; [apply Q in J; destruct J as [J|J]; [left; exact J|right; exists v; split; [left; reflexivity|exact J]]|right; exists w; split; [right; exact Iw|exact Jw]].
      + intros [J|(w & [<-|Iw] & Jw)]; [left; apply Q; left; exact J|left; apply Q; right; exact Jw|right; exists w; split; [exact Iw|exact Jw]].
Qed.

Section Main.
  Context (eord tord : list Z -> list Z) (ord : list Z -> list Z -> list Z).
  Context (He : forall l, Permutation (eord l) l) (Htord : forall l, Permutation (tord l) l).

  Lemma solve_ok a (HA : forall sets target, (forall s, In s sets -> NoDup s /\ incl s target) ->
      exists L, algorithmx sets ord target = Ret (map (map (set_at sets)) L) /\ each_once (cover_of sets target) L) :
    (length a <= 81)%nat -> (forall d, In d a -> 0 <= d <= 9) ->
    (exists s, sudoku_dlx eord tord ord a = Ret s /\ completion a s) \/ (sudoku_dlx eord tord ord a = Raise StopIteration /\ forall s, ~ completion a s).
  Proof using He Htord.
    intros La Da. destruct (parse_ok a La) as (M & EM & GM & HM).
    assert (DM : forall r c, 0 <= r < 9 -> 0 <= c < 9 -> dig (mget M r c)).
    { intros r c R C. rewrite (HM r c R C). unfold digit, dig. destruct (nth_in_or_default (Z.to_nat (9 * r + c)) a 0) as [J|Q]; [apply Da, J|rewrite Q; lia]. }
    unfold sudoku_dlx. rewrite EM. cbn [bind]. rewrite (vectors_ok eord M GM). cbn [bind].
    set (sets := map (fun t => eord (ents t)) (triples M)). set (target := tord _).
    assert (Ht : forall x, In x target <-> exists t, In t (triples M) /\ In x (ents t)).
    { intros x. unfold target. transitivity (In x (fold_left (fun acc v => fold_left sadd v acc) sets [])).
      - split; intros J; [apply (Permutation_in _ (Htord _)), J|apply (Permutation_in _ (Permutation_sym (Htord _))), J].
      - rewrite fold_union_In. split.
        + intros [[]|(v & Iv & Jv)]. apply in_map_iff in Iv. destruct Iv as (t & <- & It). exists t. split; [exact It|apply (Permutation_in _ (He _)), Jv].
        + intros (t & It & Jt). right. exists (eord (ents t)). split; [apply in_map_iff; exists t; auto|apply (Permutation_in _ (Permutation_sym (He _))), Jt]. }
    clearbody target.
    destruct (HA sets target) as (L & EL & L1 & L2 & _).
    { intros s Is. apply in_map_iff in Is. destruct Is as (t & <- & It). pose proof (triples_ok M DM t It) as Ot. split.
      - apply (Permutation_NoDup (Permutation_sym (He _))), ents_NoDup, Ot.
      - intros x Ix. apply Ht. exists t. split; [exact It|apply (Permutation_in _ (He _)), Ix]. }
    rewrite EL. cbn [bind]. destruct L as [|J L]; cbn [map].
    - right. split; [reflexivity|]. intros s (S1 & S2 & S3 & S4).
      destruct (filled_cover eord He M target DM Ht (fun r c => digit s (9 * r + c))) as (J & HJ); [|destruct (L2 J HJ) as (K & [] & _)]. split.
      + intros r c R C. split; [apply S2; lia|]. intros N. rewrite HM in N |- * by assumption. apply S3; [lia|exact N].
      + intros r c r' c' R C R' C' N H. apply S4; [lia|lia|]. apply peers_iff; [lia|lia|]. destruct (pos_div r c C) as (-> & ->), (pos_div r' c' C') as (-> & ->). auto.
    - left. destruct (cover_triples eord He M target J (L1 J (or_introl eq_refl))) as (HT & ET). fold sets in ET. rewrite ET. set (T := map (at_ M) J) in *.
      destruct (write_ok eord T M He GM) as (M' & st & E' & G' & H'); [intros t It; apply (triples_ok M DM), HT, It|].
      unfold write_loop in E'. rewrite E'. cbn [bind]. destruct (to_string_ok M' G') as (s & Es & Ls & Hs). exists s. split; [exact Es|].
      assert (Q : forall r c, 0 <= r < 9 -> 0 <= c < 9 -> In (r, c, mget M' r c) T).
      { intros r c R C. destruct (H' r c R C) as [K|(K & _)]; [exact K|]. exfalso. destruct (cover_cell M target DM Ht T r c HT R C) as (d & Id). apply (K d Id). }
      split; [exact Ls|]. split; [|split].
      + intros i Hi. rewrite (Hs i Hi). destruct (pos_split i Hi) as (R & C & _). specialize (Q _ _ R C). apply (proj1 HT) in Q. apply (triples_ok M DM) in Q. apply Q.
      + intros i Hi N. rewrite (Hs i Hi). destruct (pos_split i Hi) as (R & C & Ei). specialize (Q _ _ R C). apply (proj1 HT) in Q. apply triples_In in Q. destruct Q as (_ & _ & Q).
        unfold options in Q. rewrite (HM _ _ R C), <- Ei in Q. destruct (Z.eqb_spec (digit a i) 0); [contradiction|]. destruct Q as [<-|[]]. reflexivity.
      + intros i j Hi Hj P E. apply (peers_iff i j Hi Hj) in P. destruct P as (P1 & P2). destruct (pos_split i Hi) as (R & C & _), (pos_split j Hj) as (R' & C' & _). rewrite (Hs i Hi), (Hs j Hj) in E.
        pose proof (Q _ _ R C) as Q1. pose proof (Q _ _ R' C') as Q2. rewrite <- E in Q2. apply P1. apply (cover_distinct M target Ht T _ _ _ _ _ HT Q1 Q2 P2).
  Qed.
End Main.
