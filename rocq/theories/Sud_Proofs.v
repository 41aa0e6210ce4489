(** * Proofs about the sudoku solver: grids and vectors *)
From Coq Require Import ZArith List Bool Lia Permutation.
From Verif Require Import Base Py Dict Lists2 AlgX_Model AlgX_Spec Sud_Spec Sud_Model.
Import ListNotations.
Open Scope Z_scope.

(** ** Grids *)
Definition mget (M : list (list Z)) (r c : Z) : Z := nth (Z.to_nat c) (nth (Z.to_nat r) M []) 0.
Definition grid (M : list (list Z)) : Prop := length M = 9%nat /\ forall r, 0 <= r < 9 -> length (nth (Z.to_nat r) M []) = 9%nat.

Lemma mgetM_ok M r c : grid M -> 0 <= r < 9 -> 0 <= c < 9 -> mgetM M r c = Ret (mget M r c).
Proof.
  intros (G1 & G2) Hr Hc. unfold mgetM. rewrite (pyget_nth _ _ []) by (rewrite G1; lia). cbn [bind]. apply pyget_nth. rewrite (G2 r Hr). lia.
Qed.

Lemma mset_ok M r c d : grid M -> 0 <= r < 9 -> 0 <= c < 9 ->
  exists M', mset M r c d = Ret M' /\ grid M' /\ forall r' c', 0 <= r' < 9 -> 0 <= c' < 9 ->
    mget M' r' c' = if (r' =? r) && (c' =? c) then d else mget M r' c'.
Proof.
  intros (G1 & G2) Hr Hc. unfold mset. rewrite (pyget_nth _ _ []) by (rewrite G1; lia). cbn [bind].
  rewrite pyset_upd by (rewrite (G2 r Hr); lia). cbn [bind]. rewrite pyset_upd by (rewrite G1; lia). eexists. split; [reflexivity|].
  set (row := nth (Z.to_nat r) M []) in *.
  assert (U : forall r', 0 <= r' < 9 -> nth (Z.to_nat r') (upd M (Z.to_nat r) (upd row (Z.to_nat c) d)) [] = if r' =? r then upd row (Z.to_nat c) d else nth (Z.to_nat r') M []).
  { intros r' Hr'. rewrite upd_nth by (rewrite G1; lia). destruct (Z.eqb_spec r' r) as [->|N]; [rewrite Nat.eqb_refl; reflexivity|].
    destruct (Nat.eqb_spec (Z.to_nat r') (Z.to_nat r)); [lia|reflexivity]. }
  split.
  - split; [rewrite upd_length; exact G1|]. intros r' Hr'. rewrite (U r' Hr'). destruct (r' =? r); [rewrite upd_length; apply G2, Hr|apply G2, Hr'].
  - intros r' c' Hr' Hc'. unfold mget. rewrite (U r' Hr'). destruct (Z.eqb_spec r' r) as [->|N]; cbn [andb]; [|reflexivity].
    rewrite upd_nth by (unfold row; rewrite (G2 r Hr); lia). destruct (Z.eqb_spec c' c) as [->|N]; [rewrite Nat.eqb_refl; reflexivity|].
    destruct (Nat.eqb_spec (Z.to_nat c') (Z.to_nat c)); [lia|reflexivity].
Qed.

Lemma grid0 : grid (repeat (repeat 0 9) 9) /\ forall r c, 0 <= r < 9 -> 0 <= c < 9 -> mget (repeat (repeat 0 9) 9) r c = 0.
Proof.
  assert (N : forall r, 0 <= r < 9 -> nth (Z.to_nat r) (repeat (repeat 0 9) 9) [] = repeat 0 9).
  { intros r Hr. apply (repeat_spec 9). apply nth_In. rewrite repeat_length. lia. }
  split; [split; [reflexivity|]|].
  - intros r Hr. rewrite (N r Hr). reflexivity.
  - intros r c Hr Hc. unfold mget. rewrite (N r Hr). apply (repeat_spec 9 0). apply nth_In. rewrite repeat_length. lia.
Qed.

Lemma pos_split i : 0 <= i < 81 -> 0 <= i / 9 < 9 /\ 0 <= i mod 9 < 9 /\ i = 9 * (i / 9) + i mod 9.
Proof. intros H. pose proof (Z.div_mod i 9 ltac:(lia)). pose proof (Z.mod_pos_bound i 9 ltac:(lia)). lia. Qed.

Lemma parse_ok a : (length a <= 81)%nat -> exists M, parse a = Ret M /\ grid M /\ forall r c, 0 <= r < 9 -> 0 <= c < 9 -> mget M r c = digit a (9 * r + c).
Proof.
  intros L. unfold parse.
  assert (G : forall b k M, 0 <= k -> k + Z.of_nat (length b) <= 81 -> grid M ->
    exists M', foldM (fun M '(i, d) => mset M (i / 9) (i mod 9) d) (combine (zrange k (k + Z.of_nat (length b))) b) M = Ret M' /\ grid M' /\
      forall r c, 0 <= r < 9 -> 0 <= c < 9 -> mget M' r c = if (k <=? 9 * r + c) && (9 * r + c <? k + Z.of_nat (length b)) then digit b (9 * r + c - k) else mget M r c).
  { clear. induction b as [|d b IH]; intros k M Hk Hl G.
    - cbn [length]. rewrite zrange_nil by lia. cbn [combine foldM]. exists M. split; [reflexivity|]. split; [exact G|]. intros r c _ _.
      destruct (Z.leb_spec k (9 * r + c)), (Z.ltb_spec (9 * r + c) (k + Z.of_nat 0)); cbn [andb]; try reflexivity; lia.
    - cbn [length] in *. rewrite zrange_cons by lia. cbn [combine foldM]. destruct (pos_split k ltac:(lia)) as (A & B & E).
      destruct (mset_ok M (k / 9) (k mod 9) d G A B) as (M1 & E1 & G1 & H1). rewrite E1. cbn [bind].
      destruct (IH (k + 1) M1 ltac:(lia) ltac:(lia) G1) as (M2 & E2 & G2 & H2). exists M2. split; [|split; [exact G2|]].
      + rewrite <- E2. do 2 f_equal. f_equal. lia.
      + intros r c Hr Hc. rewrite (H2 r c Hr Hc), (H1 r c Hr Hc). destruct (Z.eqb_spec r (k / 9)) as [Er|Nr], (Z.eqb_spec c (k mod 9)) as [Ec|Nc]; cbn [andb].
        * assert (Q : 9 * r + c = k) by lia. rewrite Q. rewrite (proj2 (Z.leb_gt (k + 1) k)) by lia. cbn [andb]. rewrite Z.leb_refl, (proj2 (Z.ltb_lt k (k + Z.of_nat (S (length b))))) by lia. cbn [andb].
          rewrite Z.sub_diag. reflexivity.
        * assert (Q : 9 * r + c <> k) by lia. destruct (Z.leb_spec (k + 1) (9 * r + c)), (Z.leb_spec k (9 * r + c)), (Z.ltb_spec (9 * r + c) (k + 1 + Z.of_nat (length b))), (Z.ltb_spec (9 * r + c) (k + Z.of_nat (S (length b)))); cbn [andb]; try lia; try reflexivity.
          unfold digit. replace (Z.to_nat (9 * r + c - k)) with (S (Z.to_nat (9 * r + c - (k + 1)))) by lia. reflexivity.
        * assert (Q : 9 * r + c <> k) by lia. destruct (Z.leb_spec (k + 1) (9 * r + c)), (Z.leb_spec k (9 * r + c)), (Z.ltb_spec (9 * r + c) (k + 1 + Z.of_nat (length b))), (Z.ltb_spec (9 * r + c) (k + Z.of_nat (S (length b)))); cbn [andb]; try lia; try reflexivity.
          unfold digit. replace (Z.to_nat (9 * r + c - k)) with (S (Z.to_nat (9 * r + c - (k + 1)))) by lia. reflexivity.
        * assert (Q : 9 * r + c <> k) by lia. destruct (Z.leb_spec (k + 1) (9 * r + c)), (Z.leb_spec k (9 * r + c)), (Z.ltb_spec (9 * r + c) (k + 1 + Z.of_nat (length b))), (Z.ltb_spec (9 * r + c) (k + Z.of_nat (S (length b)))); cbn [andb]; try lia; try reflexivity.
          unfold digit. replace (Z.to_nat (9 * r + c - k)) with (S (Z.to_nat (9 * r + c - (k + 1)))) by lia. reflexivity. }
  destruct grid0 as (G0 & Z0). destruct (G a 0 _ ltac:(lia) ltac:(lia) G0) as (M & E & GM & HM). exists M. split; [exact E|]. split; [exact GM|].
  intros r c Hr Hc. rewrite (HM r c Hr Hc), (Z0 r c Hr Hc), Z.sub_0_r. rewrite (proj2 (Z.leb_le 0 (9 * r + c))) by lia. cbn [andb].
  destruct (Z.ltb_spec (9 * r + c) (0 + Z.of_nat (length a))); [reflexivity|]. unfold digit. rewrite nth_overflow; [reflexivity|lia].
Qed.

Lemma to_string_ok M : grid M -> exists s, to_string M = Ret s /\ length s = 81%nat /\ forall i, 0 <= i < 81 -> digit s i = mget M (i / 9) (i mod 9).
Proof.
  intros G. unfold to_string. rewrite (mapM_ret _ (fun '(i, j) => mget M i j)).
  - eexists. split; [reflexivity|]. split; [reflexivity|]. intros i Hi.
    assert (C : exists k, (k < 81)%nat /\ i = Z.of_nat k) by (exists (Z.to_nat i); lia). destruct C as (k & Hk & ->). unfold digit. rewrite Nat2Z.id. clear Hi G.
    do 81 (destruct k as [|k]; [reflexivity|]). lia.
  - intros (i, j) I. apply in_prod_iff in I. destruct I as (I & J). apply zrange_In in I, J. apply mgetM_ok; assumption.
Qed.

(** ** Vectors *)
Definition block (r c : Z) : Z := 3 * (r / 3) + c / 3.
Definition ents (t : Z * Z * Z) : list Z := let '(r, c, d) := t in [code 0 r c; code 1 d r; code 2 d c; code 3 d (block r c)].

Lemma nine (P : Z -> Prop) : P 0 -> P 1 -> P 2 -> P 3 -> P 4 -> P 5 -> P 6 -> P 7 -> P 8 -> forall r, 0 <= r < 9 -> P r.
Proof. intros. assert (r = 0 \/ r = 1 \/ r = 2 \/ r = 3 \/ r = 4 \/ r = 5 \/ r = 6 \/ r = 7 \/ r = 8) as D by lia. repeat (destruct D as [->|D]; [assumption|]). subst r. assumption. Qed.

Lemma entries_ok r c d : 0 <= r < 9 -> 0 <= c < 9 -> entries r c d = Ret (ents (r, c, d)).
Proof.
  intros Hr Hc. revert c Hc. apply (nine (fun r => forall c, 0 <= c < 9 -> entries r c d = Ret (ents (r, c, d)))); [..|exact Hr];
    (apply nine; reflexivity).
Qed.

Definition options (x : Z) : list Z := if x =? 0 then zrange 1 10 else [x].
Definition triples (M : list (list Z)) : list (Z * Z * Z) :=
  flat_map (fun r => flat_map (fun c => map (fun d => (r, c, d)) (options (mget M r c))) (zrange 0 9)) (zrange 0 9).

Lemma triples_In M r c d : In (r, c, d) (triples M) <-> 0 <= r < 9 /\ 0 <= c < 9 /\ In d (options (mget M r c)).
Proof.
  unfold triples. rewrite in_flat_map. split.
  - intros (r' & Ir & I). apply in_flat_map in I. destruct I as (c' & Ic & I). apply in_map_iff in I. destruct I as (d' & E & Id). injection E as -> -> ->. apply zrange_In in Ir, Ic. auto.
  - intros (Hr & Hc & Hd). exists r. split; [apply zrange_In, Hr|]. apply in_flat_map. exists c. split; [apply zrange_In, Hc|]. apply in_map_iff. exists d. auto.
Qed.

Lemma NoDup_flat {A B} (f : A -> list B) l : NoDup l -> (forall x, In x l -> NoDup (f x)) -> (forall x y z, In x l -> In y l -> In z (f x) -> In z (f y) -> x = y) -> NoDup (flat_map f l).
Proof.
  induction 1 as [|a l Na N IH]; intros H1 H2; cbn [flat_map]; [constructor|]. apply NoDup_app_intro.
  - apply H1. left; reflexivity.
  - apply IH; [intros; apply H1; right; assumption|]. intros x y z Ix Iy. apply H2; right; assumption.
  - intros z I J. apply in_flat_map in J. destruct J as (y & Iy & J). apply Na. rewrite (H2 a y z); [exact Iy|left; reflexivity|right; exact Iy|exact I|exact J].
Qed.

Lemma triples_NoDup M : NoDup (triples M).
Proof.
  unfold triples. apply NoDup_flat; [apply zrange_NoDup| |].
  - intros r _. apply NoDup_flat; [apply zrange_NoDup| |].
    + intros c _. apply FinFun.Injective_map_NoDup; [intros x y E; congruence|]. unfold options. destruct (mget M r c =? 0); [apply zrange_NoDup|repeat constructor; intros []].
    + intros c c' z _ _ I J. apply in_map_iff in I, J. destruct I as (d & <- & _), J as (d' & E & _). congruence.
  - intros r r' z _ _ I J. apply in_flat_map in I, J. destruct I as (c & _ & I), J as (c' & _ & J). apply in_map_iff in I, J. destruct I as (d & <- & _), J as (d' & E & _). congruence.
Qed.

Lemma foldM_collect {A B} (f : A -> list B) (g : list B -> A -> outcome (list B)) l acc :
  (forall acc x, In x l -> g acc x = Ret (acc ++ f x)) -> foldM g l acc = Ret (acc ++ flat_map f l).
Proof.
  revert acc. induction l as [|x l IH]; intros acc H; cbn [foldM flat_map]; [rewrite app_nil_r; reflexivity|].
  rewrite H by (left; reflexivity). cbn [bind]. rewrite IH by (intros; apply H; right; assumption). rewrite app_assoc. reflexivity.
Qed.

Lemma flat_map_map {A B C} (h : B -> C) (f : A -> list B) l : map h (flat_map f l) = flat_map (fun x => map h (f x)) l.
Proof. induction l as [|x l IH]; [reflexivity|]. cbn [flat_map]. rewrite map_app, IH. reflexivity. Qed.

Lemma vectors_ok eord M : grid M -> sudoku_vectors eord M = Ret (map (fun t => eord (ents t)) (triples M)).
Proof.
  intros G. unfold sudoku_vectors, triples. rewrite flat_map_map. rewrite (foldM_collect (fun r => map (fun t => eord (ents t)) (flat_map (fun c => map (fun d => (r, c, d)) (options (mget M r c))) (zrange 0 9)))); [reflexivity|].
  intros acc r Ir. apply zrange_In in Ir. rewrite flat_map_map. rewrite (foldM_collect (fun c => map (fun t => eord (ents t)) (map (fun d => (r, c, d)) (options (mget M r c))))); [reflexivity|].
  intros acc' c Ic. apply zrange_In in Ic. rewrite (mgetM_ok M r c G Ir Ic). cbn [bind]. fold (options (mget M r c)).
  rewrite (foldM_collect (fun d => [eord (ents (r, c, d))])).
  - f_equal. f_equal. induction (options (mget M r c)) as [|d l IH]; [reflexivity|]. cbn [flat_map map]. rewrite <- IH. reflexivity.
  - intros acc'' d _. rewrite (entries_ok r c d Ir Ic). reflexivity.
Qed.
