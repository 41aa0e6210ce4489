(** * Proofs about the matrices of a graph *)
From Coq Require Import ZArith List Lia Bool Permutation Sorted.
From Verif Require Import Base Py Dict Lists Lists2 Graph_Model Graph_Spec Graph_Proofs Graph_Proofs2 Graph_Props Mat_Spec Mat_Model Mat_Proofs Mat_Props Gmat_Model.
Import ListNotations.
Open Scope Z_scope.

Lemma enum_inv {S} (f : S -> Z * Z -> outcome S) (I : Z -> S -> Prop) : forall vs a s, I a s ->
  (forall i s, a <= i < a + Z.of_nat (length vs) -> I i s -> exists s', f s (i, nth (Z.to_nat (i - a)) vs 0) = Ret s' /\ I (i + 1) s') ->
  exists s', foldM f (combine (zrange a (a + Z.of_nat (length vs))) vs) s = Ret s' /\ I (a + Z.of_nat (length vs)) s'.
Proof.
  induction vs as [|v vs IH]; intros a s H0 H; cbn [length].
  - rewrite zrange_nil by lia. exists s. split; [reflexivity|]. rewrite Z.add_0_r. exact H0.
  - rewrite zrange_cons by lia. cbn [combine foldM]. destruct (H a s ltac:(cbn [length]; lia) H0) as (s1 & E1 & H1). rewrite Z.sub_diag in E1. cbn [Z.to_nat nth] in E1. rewrite E1. cbn [bind].
    destruct (IH (a + 1) s1 H1) as (s2 & E2 & H2).
    + intros i s2 Hi Hs. destruct (H i s2 ltac:(cbn [length]; lia) Hs) as (s3 & E3 & H3). exists s3. split; [|exact H3].
      replace (Z.to_nat (i - a)) with (Datatypes.S (Z.to_nat (i - (a + 1)))) in E3 by lia. exact E3.
    + exists s2. split; [|replace (a + Z.of_nat (Datatypes.S (length vs))) with (a + 1 + Z.of_nat (length vs)) by lia; exact H2].
      rewrite <- E2. do 2 f_equal. f_equal. lia.
Qed.

Lemma zsum_plus {A} (f h : A -> Z) l : zsum (map (fun x => f x + h x) l) = zsum (map f l) + zsum (map h l).
Proof. induction l as [|x l IH]; [reflexivity|]. cbn [map]. rewrite !zsum_cons, IH. lia. Qed.
Lemma zsum_mul {A} c (f : A -> Z) l : zsum (map (fun x => c * f x) l) = c * zsum (map f l).
Proof. induction l as [|x l IH]; [cbn; lia|]. cbn [map]. rewrite !zsum_cons, IH. lia. Qed.
Lemma zsum_zero {A} (f : A -> Z) l : (forall x, In x l -> f x = 0) -> zsum (map f l) = 0.
Proof. induction l as [|x l IH]; intros H; [reflexivity|]. cbn [map]. rewrite zsum_cons, IH, (H x (or_introl eq_refl)) by (intros; apply H; right; assumption). lia. Qed.
Lemma zsum_ext {A} (f h : A -> Z) l : (forall x, In x l -> f x = h x) -> zsum (map f l) = zsum (map h l).
Proof. intros H. f_equal. apply map_ext_in, H. Qed.
Lemma zsum_swap {A B} (f : A -> B -> Z) l m : zsum (map (fun x => zsum (map (f x) m)) l) = zsum (map (fun y => zsum (map (fun x => f x y) l)) m).
Proof.
  induction l as [|x l IH]; cbn [map]; [symmetry; apply zsum_zero; reflexivity|]. rewrite zsum_cons, IH, <- zsum_plus. apply zsum_ext. intros y _. rewrite zsum_cons. reflexivity.
Qed.
Lemma zsum_pick (l : list nat) k (f : nat -> Z) : NoDup l -> In k l -> (forall x, In x l -> x <> k -> f x = 0) -> zsum (map f l) = f k.
Proof.
  induction 1 as [|x l Nx N IH]; intros I H; [destruct I|]. cbn [map]. rewrite zsum_cons. destruct (Nat.eq_dec x k) as [->|D].
  - rewrite zsum_zero; [lia|]. intros y Hy. apply H; [right; exact Hy|intros ->; contradiction].
  - destruct I as [->|I]; [congruence|]. rewrite (H x (or_introl eq_refl) D), IH; [lia|exact I|]. intros y Hy. apply H. right. exact Hy.
Qed.

Definition edgeb (g : graph) (u v : Z) : bool := match dget g u with Some a => dmem a v | None => false end.
Lemma edgeb_edge g u v : edgeb g u v = true <-> edge g u v.
Proof. unfold edgeb, edge, weight. destruct (dget g u) as [a|]; [|split; [discriminate|intros (w & E); discriminate]]. rewrite dmem_In. apply dget_key. Qed.

Section G.
  Context (g : graph) (Hg : undirected g) (Ne : g <> []).
  Notation vs := (vertices g).
  Notation n := (length (vertices g)).
  Notation at_ := (fun i => nth i vs 0).

  Lemma vs_pos : (0 < n)%nat.
  Proof using Ne. clear Hg. unfold vertices. rewrite zsort_length. destruct g; [congruence|cbn; lia]. Qed.
  Lemma vs_In u : In u vs <-> vertex g u. Proof using Type. unfold vertices. apply zsort_In. Qed.
  Lemma vs_NoDup : NoDup vs. Proof using Hg. unfold vertices. eapply Permutation_NoDup; [symmetry; apply zsort_perm|apply Hg]. Qed.

  Lemma zero_new : new_matrix (zero_matrix (Z.of_nat n) (Z.of_nat n)) = Ret (zero_matrix (Z.of_nat n) (Z.of_nat n)).
  Proof using Ne. apply (shape_new _ (Z.to_nat (Z.of_nat n)) (Z.to_nat (Z.of_nat n))); [apply zero_shape; lia|pose proof vs_pos; lia]. Qed.
  Lemma zero_en i j : en (zero_matrix (Z.of_nat n) (Z.of_nat n)) i j = 0.
  Proof using Type.
    unfold en, ent, zero_matrix. destruct (nth_in_or_default (Z.to_nat i) (repeat (repeat 0 (Z.to_nat (Z.of_nat n))) (Z.to_nat (Z.of_nat n))) []) as [I|E].
    - apply repeat_spec in I. rewrite I. apply nth_repeat.
    - rewrite E. destruct (Z.to_nat j); reflexivity.
  Qed.

  Lemma adjacency_ok : exists M, adjacency_matrix g = Ret M /\ shape M n n /\
    forall i j, (i < n)%nat -> (j < n)%nat -> ent M i j = if edgeb g (at_ i) (at_ j) then 1 else 0.
  Proof using Hg Ne.
    unfold adjacency_matrix. rewrite zero_new. cbn [bind]. unfold enumerate. set (N := Z.of_nat n).
    set (b := fun i j => if edgeb g (at_ (Z.to_nat i)) (at_ (Z.to_nat j)) then 1 else 0).
    destruct (enum_inv (fun mat '(i, u) => foldM (fun mat '(j, v) => do a <- g_adj g u; if dmem a v then mset mat i j 1 else Ret mat) (combine (zrange 0 N) vs) mat)
      (fun k R => shape R n n /\ forall x y, 0 <= x < N -> 0 <= y < N -> en R x y = if x <? k then b x y else 0) vs 0 (zero_matrix N N)) as (M & E & S & H).
    - split; [pose proof (zero_shape N N ltac:(lia) ltac:(lia)) as Q; unfold N in Q; rewrite Nat2Z.id in Q; exact Q|]. intros x y Hx Hy. destruct (Z.ltb_spec x 0); [lia|]. apply zero_en.
    - intros i R Hi (SR & HR). rewrite Z.sub_0_r. rewrite Z.add_0_l in Hi.
      assert (Vi : vertex g (at_ (Z.to_nat i))) by (apply vs_In, nth_In; lia). apply vertex_dget in Vi as (a & Ea).
      destruct (enum_inv (fun mat '(j, v) => do a <- g_adj g (at_ (Z.to_nat i)); if dmem a v then mset mat i j 1 else Ret mat)
        (fun l T => shape T n n /\ forall x y, 0 <= x < N -> 0 <= y < N -> en T x y = if (x =? i) && (y <? l) then b x y else en R x y) vs 0 R) as (R' & E' & S' & H').
      + split; [exact SR|]. intros x y Hx Hy. destruct (Z.ltb_spec y 0); [lia|]. rewrite andb_false_r. reflexivity.
      + intros j T Hj (ST & HT). rewrite Z.sub_0_r. rewrite Z.add_0_l in Hj. unfold g_adj, dgetM. rewrite Ea. cbn [bind].
        assert (Bij : b i j = if dmem a (at_ (Z.to_nat j)) then 1 else 0) by (unfold b, edgeb; rewrite Ea; reflexivity).
        assert (R0 : en R i j = 0) by (rewrite HR by (unfold N; lia); rewrite Z.ltb_irrefl; reflexivity).
        destruct (dmem a (at_ (Z.to_nat j))).
        * destruct (mset_ok T n n i j 1 ST ltac:(lia) ltac:(lia)) as (T' & ET & ST' & HT'). exists T'. split; [exact ET|]. split; [exact ST'|]. intros x y Hx Hy. rewrite HT', HT by lia.
          destruct (Z.eqb_spec x i) as [->|]; cbn [andb]; [|reflexivity]. destruct (Z.eqb_spec y j) as [->|D]; [destruct (Z.ltb_spec j (j + 1)); [auto|lia]|].
          destruct (Z.ltb_spec y j), (Z.ltb_spec y (j + 1)); try reflexivity; lia.
        * exists T. split; [reflexivity|]. split; [exact ST|]. intros x y Hx Hy. rewrite HT by lia. destruct (Z.eqb_spec x i) as [->|]; cbn [andb]; [|reflexivity].
          destruct (Z.ltb_spec y j), (Z.ltb_spec y (j + 1)); try reflexivity; try lia. assert (y = j) as -> by lia. rewrite Bij. exact R0.
      + exists R'. rewrite Z.add_0_l in E'. split; [exact E'|]. split; [exact S'|]. intros x y Hx Hy. rewrite H', HR by assumption. rewrite Z.add_0_l. destruct (Z.ltb_spec y (Z.of_nat n)); [|lia]. rewrite andb_true_r.
        destruct (Z.eqb_spec x i) as [->|]; [destruct (Z.ltb_spec i (i + 1)); [reflexivity|lia]|]. destruct (Z.ltb_spec x i), (Z.ltb_spec x (i + 1)); try reflexivity; lia.
    - rewrite Z.add_0_l in E, H. exists M. split; [exact E|]. split; [exact S|]. intros i j Hi Hj. specialize (H (Z.of_nat i) (Z.of_nat j) ltac:(lia) ltac:(lia)). unfold en in H. rewrite !Nat2Z.id in H. rewrite H.
      destruct (Z.ltb_spec (Z.of_nat i) (Z.of_nat n)); [|lia]. unfold b. rewrite !Nat2Z.id. reflexivity.
  Qed.

  Lemma degree_ok : exists M, degree_matrix g = Ret M /\ shape M n n /\
    forall i j, (i < n)%nat -> (j < n)%nat -> ent M i j = if (i =? j)%nat then degree0 g (at_ i) else 0.
  Proof using Hg Ne.
    unfold degree_matrix. rewrite zero_new. cbn [bind]. unfold enumerate. set (N := Z.of_nat n).
    destruct (enum_inv (fun mat '(i, v) => do a <- g_adj g v; mset mat i i (Z.of_nat (length a)))
      (fun k R => shape R n n /\ forall x y, 0 <= x < N -> 0 <= y < N -> en R x y = if (x <? k) && (x =? y) then degree0 g (at_ (Z.to_nat x)) else 0) vs 0 (zero_matrix N N)) as (M & E & S & H).
    - split; [pose proof (zero_shape N N ltac:(lia) ltac:(lia)) as Q; unfold N in Q; rewrite Nat2Z.id in Q; exact Q|]. intros x y Hx Hy. destruct (Z.ltb_spec x 0); [lia|]. apply zero_en.
    - intros i R Hi (SR & HR). rewrite Z.sub_0_r. rewrite Z.add_0_l in Hi. assert (Vi : vertex g (at_ (Z.to_nat i))) by (apply vs_In, nth_In; lia). apply vertex_dget in Vi as (a & Ea).
      unfold g_adj, dgetM. rewrite Ea. cbn [bind]. destruct (mset_ok R n n i i (Z.of_nat (length a)) SR ltac:(lia) ltac:(lia)) as (T' & ET & ST' & HT'). exists T'. split; [exact ET|]. split; [exact ST'|].
      intros x y Hx Hy. rewrite HT', HR by lia. destruct (Z.eqb_spec x i) as [->|].
      + destruct (Z.ltb_spec i (i + 1)); [|lia]. rewrite Z.ltb_irrefl. cbn [andb]. rewrite (Z.eqb_sym i y). destruct (Z.eqb_spec y i); [unfold degree0; rewrite Ea; reflexivity|reflexivity].
      + cbn [andb]. destruct (Z.ltb_spec x i), (Z.ltb_spec x (i + 1)); try reflexivity; lia.
    - rewrite Z.add_0_l in E, H. exists M. split; [exact E|]. split; [exact S|]. intros i j Hi Hj. specialize (H (Z.of_nat i) (Z.of_nat j) ltac:(lia) ltac:(lia)). unfold en in H. rewrite !Nat2Z.id in H. rewrite H.
      destruct (Z.ltb_spec (Z.of_nat i) (Z.of_nat n)); [|lia]. cbn [andb]. destruct (Z.eqb_spec (Z.of_nat i) (Z.of_nat j)), (Nat.eqb_spec i j); try reflexivity; lia.
  Qed.

  (** The number of neighbours, counted along the row. *)
  Lemma degree_count u : vertex g u -> zsum (map (fun v => if edgeb g u v then 1 else 0) vs) = degree0 g u.
  Proof using Hg.
    intros Vu. pose proof (proj2 (undirected_wfd g Hg)) as W. apply vertex_dget in Vu as (a & Ea). unfold degree0. rewrite Ea.
    assert (C : forall l, zsum (map (fun v => if edgeb g u v then 1 else 0) l) = Z.of_nat (length (filter (edgeb g u) l))).
    { induction l as [|x l IH]; [reflexivity|]. cbn [map filter]. rewrite zsum_cons, IH. destruct (edgeb g u x); cbn [length]; lia. }
    rewrite C. f_equal. rewrite <- (map_length fst a). apply Permutation_length, NoDup_same_perm.
    - apply NoDup_filter, vs_NoDup.
    - apply (W u a Ea).
    - intros x. rewrite filter_In, edgeb_edge, vs_In. unfold edge, weight. rewrite Ea. fold (dkeys a). rewrite dget_key. split; [intros (_ & Q); exact Q|].
      intros Q. split; [|exact Q]. destruct Hg as (_ & _ & V & _). apply (V u x). unfold edge, weight. rewrite Ea. exact Q.
  Qed.

  Lemma index_sum (f : Z -> Z) : zsum (map (fun i => f (at_ i)) (seq 0 n)) = zsum (map f vs).
  Proof using Type.
    f_equal. rewrite <- (map_map at_ f). f_equal. generalize vs. intros l. apply (nth_ext _ _ 0 0); [rewrite map_length, seq_length; reflexivity|].
    rewrite map_length, seq_length. intros k Hk. rewrite (nth_indep _ 0 (nth 0%nat l 0)) by (rewrite map_length, seq_length; exact Hk). rewrite (map_nth (fun i => nth i l 0)). rewrite seq_nth by exact Hk. reflexivity.
  Qed.
End G.
