(** * The bound of branch_and_bound is below every completion *)
From Coq Require Import ZArith List Bool Lia Permutation.
From Verif Require Import Base Py Sums Lists2 TSP_Model TSP_Spec TSP_Proofs TSP_Proofs2 TSP_Proofs3 TSP_Proofs4.
Import ListNotations.
Open Scope Z_scope.

Lemma foldM_ext_in {A S} (f g : S -> A -> outcome S) l : (forall s x, In x l -> f s x = g s x) -> forall s, foldM f l s = foldM g l s.
Proof. induction l as [|x l IH]; intros H s; [reflexivity|]. cbn [foldM]. rewrite H by (left; reflexivity). destruct (g s x); cbn [bind]; try reflexivity. apply IH. intros s' y Hy. apply H. right. exact Hy. Qed.

Lemma foldM_map {A B S} (f : S -> B -> outcome S) (h : A -> B) l : forall s, foldM f (map h l) s = foldM (fun s x => f s (h x)) l s.
Proof. induction l as [|x l IH]; intros s; [reflexivity|]. cbn [map foldM]. destruct (f s (h x)); cbn [bind]; try reflexivity. apply IH. Qed.

Lemma zrange_shift1 m : zrange 1 m = map (fun i => i + 1) (zrange 0 (m - 1)).
Proof.
  apply (nth_ext _ _ 0 (0 + 1)); [rewrite map_length, !zrange_length; f_equal; lia|]. intros i Hi. rewrite zrange_length in Hi. rewrite (map_nth (fun i => i + 1)). rewrite !zrange_nth by lia. lia.
Qed.

Lemma closed_neq : forall (l : list Z) x z, NoDup (x :: l) -> ~ In z l -> (l = [] -> x <> z) -> forall i j, In (i, j) (combine (x :: l) (l ++ [z])) -> i <> j.
Proof.
  induction l as [|y l IH]; intros x z N Nz Hx i j H; cbn [app combine] in H.
  - destruct H as [[= <- <-]|[]]. apply Hx. reflexivity.
  - inversion N as [|? ? N1 N2]; subst. destruct H as [[= <- <-]|H]; [intros ->; apply N1; left; reflexivity|]. apply (IH y z N2); [intros I; apply Nz; right; exact I|intros _ ->; apply Nz; left; reflexivity|exact H].
Qed.

Lemma combine_fst {A B} (l : list A) (l' : list B) : length l = length l' -> map fst (combine l l') = l.
Proof. revert l'. induction l as [|x l IH]; intros [|y l'] E; cbn in *; try discriminate; [reflexivity|]. f_equal. apply IH. lia. Qed.
Lemma combine_snd {A B} (l : list A) (l' : list B) : length l = length l' -> map snd (combine l l') = l'.
Proof. revert l'. induction l as [|x l IH]; intros [|y l'] E; cbn in *; try discriminate; [reflexivity|]. f_equal. apply IH. lia. Qed.

Section Bound.
  Context (n : Z) (d : Z -> Z -> Z) (D : list (list (option Z))).
  Hypothesis HD : distances n d D.
  Hypothesis Hn : 2 <= n.

  Lemma bound_path X t : NoDup X -> (forall x, In x X -> 0 <= x < n) ->
    foldM (fun ans i => do a <- pyget X (i - 1); do b <- pyget X i; do w <- entry D a b; Ret (wadd ans w)) (zrange 1 (Z.of_nat (length X))) (Some t) = Ret (Some (t + path_cost d X)).
  Proof using HD.
    intros N R. rewrite zrange_shift1, foldM_map. rewrite <- (cost_loop n d D HD X t N R). apply foldM_ext_in. intros s i _. replace (i + 1 - 1) with i by lia. reflexivity.
  Qed.

  Lemma reduce_bound_ok X : partial n X -> exists b, reduce_bound D n X = Ret (Some b) /\ forall rest, tour n (X ++ rest) -> b <= tour_cost d (X ++ rest).
  Proof using HD Hn.
    intros P. assert (P' := P). destruct P' as (H0 & N & R). assert (HX : X <> []) by (intros ->; cbn in H0; lia). unfold reduce_bound. cbv zeta.
    assert (LX : (length X <= Z.to_nat n)%nat). { rewrite <- (Z.sub_0_r n), <- zrange_length. apply NoDup_incl_length; [exact N|]. intros x Hx. apply zrange_In, R, Hx. }
    destruct (Z.eqb_spec (Z.of_nat (length X)) n) as [E|E].
    { assert (T := full_tour n Hn X P E). exists (tour_cost d X). split; [apply cost_tour; assumption|]. intros rest T'. destruct (tour_facts n _ T') as (_ & _ & L). rewrite app_length in L. destruct rest; [rewrite app_nil_r; lia|cbn in L; lia]. }
    fold (others n X). set (other := others n X). assert (Io : forall y, In y other <-> 0 <= y < n /\ ~ In y X) by (intros y; apply others_In).
    assert (No : NoDup other) by (apply NoDup_filter, zrange_NoDup).
    rewrite (pyget_last X HX), (pyget_first X HX). cbn [bind]. set (la := last X 0). set (fi := hd 0 X). assert (Ila : In la X) by (apply last_In, HX). assert (Ifi : In fi X) by (apply hd_In, HX).
    set (E0 := fun x y => nth (Z.to_nat y) (nth (Z.to_nat x) D []) None).
    assert (EG : forall x y, 0 <= x < n -> 0 <= y < n -> entry D x y = Ret (E0 x y)) by (intros x y; apply (entry_get n d D HD)).
    assert (EF : forall x y, 0 <= x < n -> 0 <= y < n -> x <> y -> E0 x y = Some (d x y)) by (intros x y Hx Hy Nx; destruct HD as (_ & _ & Q); apply Q; assumption).
    rewrite (mapM_ret _ (E0 la)) by (intros y Hy%Io; apply EG; [apply R, Ila|apply Hy]). cbn [bind].
    rewrite (mapM_ret _ (fun x => E0 x fi :: map (E0 x) other)).
    2: { intros x Hx%Io. rewrite EG by (apply Hx || apply R, Ifi). cbn [bind]. rewrite (mapM_ret _ (E0 x)) by (intros y Hy%Io; apply EG; [apply Hx|apply Hy]). reflexivity. }
    cbn [bind]. set (MM := (None :: map (E0 la) other) :: map (fun x => E0 x fi :: map (E0 x) other) other). set (k := Z.of_nat (length other) + 1).
    set (g := fun i => nth (Z.to_nat (i - 1)) other 0).
    assert (Hg : forall i, 1 <= i < k -> In (g i) other) by (intros i Hi; apply nth_In; unfold k in Hi; lia).
    assert (Ginj : forall i j, 1 <= i < k -> 1 <= j < k -> g i = g j -> i = j). { intros i j Hi Hj Eq. apply (proj1 (NoDup_nth other 0) No) in Eq; unfold k in *; lia. }
    set (fr := fun i => if i =? 0 then la else g i). set (to := fun j => if j =? 0 then fi else g j).
    assert (Cell : forall i j, 0 <= i < k -> 0 <= j < k -> cell MM i j = if (i =? 0) && (j =? 0) then None else E0 (fr i) (to j)).
    { intros i j Hi Hj. unfold cell, MM, fr, to, g. destruct (Z.eqb_spec i 0) as [->|Ni].
      - cbn [Z.to_nat nth andb]. destruct (Z.eqb_spec j 0) as [->|Nj]; [reflexivity|]. replace (Z.to_nat j) with (S (Z.to_nat (j - 1))) by lia. cbn [nth]. apply (nth_map_def _ _ _ _ 0). unfold k in Hj. lia.
      - replace (Z.to_nat i) with (S (Z.to_nat (i - 1))) by lia. cbn [nth andb]. rewrite (nth_map_def _ _ _ _ 0) by (unfold k in Hi; lia). destruct (Z.eqb_spec j 0) as [->|Nj]; [reflexivity|]. replace (Z.to_nat j) with (S (Z.to_nat (j - 1))) by lia. cbn [nth]. apply (nth_map_def _ _ _ _ 0). unfold k in Hj. lia. }
    assert (CellF : forall i j, 0 <= i < k -> 0 <= j < k -> i <> j -> cell MM i j = Some (d (fr i) (to j))).
    { intros i j Hi Hj Nij. rewrite Cell by assumption. assert (B : (i =? 0) && (j =? 0) = false) by (destruct (Z.eqb_spec i 0), (Z.eqb_spec j 0); try reflexivity; lia). rewrite B.
      assert (Rf : 0 <= fr i < n /\ (fr i = la \/ In (fr i) other)). { unfold fr. destruct (Z.eqb_spec i 0); [split; [apply R, Ila|left; reflexivity]|]. assert (X1 := Hg i ltac:(lia)). split; [apply Io, X1|right; exact X1]. }
      assert (Rt : 0 <= to j < n). { unfold to. destruct (Z.eqb_spec j 0); [apply R, Ifi|]. apply Io, Hg. lia. }
      apply EF; [apply Rf|exact Rt|]. unfold fr, to. destruct (Z.eqb_spec i 0), (Z.eqb_spec j 0); try lia.
      - intros Eq. assert (X1 := Hg j ltac:(lia)). rewrite <- Eq in X1. apply Io in X1. tauto.
      - intros Eq. assert (X1 := Hg i ltac:(lia)). rewrite Eq in X1. apply Io in X1. tauto.
      - intros Eq. apply Ginj in Eq; lia. }
    assert (Ho : other <> []).
    { intros Eo. assert (Z.of_nat (length X) < n) by lia. assert (In' : incl (zrange 0 n) X). { intros x Hx%zrange_In. destruct (in_dec Z.eq_dec x X) as [I|I]; [exact I|]. exfalso. assert (In x other) by (apply Io; split; assumption). rewrite Eo in *. contradiction. }
      apply NoDup_incl_length in In'; [|apply zrange_NoDup]. rewrite zrange_length in In'. lia. }
    assert (Hk : 2 <= k) by (unfold k; destruct other; [congruence|cbn [length]; lia]).
    destruct (reduce_matrix_ok k MM) as (v & Ev & Hv).
    { lia. }
    { split; [unfold MM, k; cbn [length]; rewrite map_length; lia|]. intros i Hi. unfold MM. destruct (Z.eqb_spec i 0) as [->|Ni]; [cbn [Z.to_nat nth length]; rewrite map_length; unfold k; lia|]. replace (Z.to_nat i) with (S (Z.to_nat (i - 1))) by lia. cbn [nth]. rewrite (nth_map_def _ _ _ _ 0) by (unfold k in Hi; lia). cbn [length]. rewrite map_length. unfold k. lia. }
    { intros i Hi. exists (if i =? 0 then 1 else 0). destruct (Z.eqb_spec i 0); (split; [lia|]; eexists; apply CellF; lia). }
    { intros j Hj. exists (if j =? 0 then 1 else 0). destruct (Z.eqb_spec j 0); (split; [lia|]; eexists; apply CellF; lia). }
    rewrite Ev. cbn [bind]. rewrite (bound_path X v N R). eexists. split; [reflexivity|]. intros rest T.
    assert (Pr : Permutation rest (map g (zrange 1 k))).
    { assert (Eo : map g (zrange 1 k) = other). { apply (nth_ext _ _ (g 0) 0); [rewrite map_length, zrange_length; unfold k; lia|]. intros i Hi. rewrite map_length, zrange_length in Hi. rewrite (nth_map_def g (zrange 1 k) i (g 0) 0) by (rewrite zrange_length; exact Hi). rewrite zrange_nth by exact Hi. unfold g. f_equal. lia. }
      rewrite Eo. destruct (tour_facts n _ T) as (N' & R' & _). apply NoDup_app_inv in N' as (_ & Nr & Dj). apply NoDup_Permutation; [exact Nr|exact No|]. intros x. rewrite Io, <- R', in_app_iff. split; [intros H; split; [right; exact H|intros I; exact (Dj x I H)]|tauto]. }
    apply Permutation_map_inv in Pr as (ks & -> & Pk). apply Permutation_sym in Pk.
    assert (Nk : NoDup ks) by (apply (Permutation_NoDup (Permutation_sym Pk)), zrange_NoDup). assert (Ik : forall x, In x ks -> 1 <= x < k) by (intros x Hx; apply zrange_In, (Permutation_in x Pk), Hx).
    assert (Hks : ks <> []). { intros ->. apply Permutation_length in Pk. rewrite zrange_length in Pk. cbn in Pk. lia. }
    assert (N0 : NoDup (0 :: ks)) by (constructor; [intros I; apply Ik in I; lia|exact Nk]).
    set (ps := combine (0 :: ks) (ks ++ [0])). assert (Lps : length (0 :: ks) = length (ks ++ [0])) by (rewrite app_length; cbn [length]; lia).
    assert (Z0k : zrange 0 k = 0 :: zrange 1 k) by (rewrite (zrange_cons 0 k) by lia; reflexivity).
    specialize (Hv ps). unfold ps in Hv. rewrite combine_fst, combine_snd in Hv by exact Lps. fold ps in Hv.
    assert (Q1 : Permutation (0 :: ks) (zrange 0 k)) by (rewrite Z0k; constructor; exact Pk).
    assert (Q2 : Permutation (ks ++ [0]) (zrange 0 k)) by (rewrite <- Q1; symmetry; apply Permutation_cons_append).
    specialize (Hv Q1 Q2 (fun i j => d (fr i) (to j))).
    assert (Hc : forall i j, In (i, j) ps -> cell MM i j = Some (d (fr i) (to j))).
    { intros i j H. apply CellF.
      - apply zrange_In, (Permutation_in i Q1). apply in_combine_l in H. exact H.
      - apply zrange_In, (Permutation_in j Q2). apply in_combine_r in H. exact H.
      - assert (Nz : ~ In 0 ks) by (intros I; apply Ik in I; lia). apply (closed_neq ks 0 0 N0 Nz); [intros Eq; congruence|exact H]. }
    specialize (Hv Hc).
    assert (Sm : forall l x, (forall y, In y (x :: l) -> 1 <= y) -> zsum (map (fun '(i, j) => d (fr i) (to j)) (combine (x :: l) (l ++ [0]))) = path_cost d (map g (x :: l)) + d (last (map g (x :: l)) 0) fi).
    { induction l as [|y l IH]; intros x H.
      - cbn [app combine map]. rewrite zsum_cons. assert (1 <= x) by (apply H; left; reflexivity). unfold fr, to. destruct (Z.eqb_spec x 0); [lia|]. rewrite Z.eqb_refl. change (zsum []) with 0. cbn [last path_cost]. lia.
      - change (combine (x :: y :: l) ((y :: l) ++ [0])) with ((x, y) :: combine (y :: l) (l ++ [0])). rewrite map_cons, zsum_cons. rewrite IH by (intros z Hz; apply H; right; exact Hz). assert (1 <= x) by (apply H; left; reflexivity). assert (1 <= y) by (apply H; right; left; reflexivity). unfold fr, to. destruct (Z.eqb_spec x 0); [lia|]. destruct (Z.eqb_spec y 0); [lia|].
        change (map g (x :: y :: l)) with (g x :: g y :: map g l). change (map g (y :: l)) with (g y :: map g l). change (path_cost d (g x :: g y :: map g l)) with (d (g x) (g y) + path_cost d (g y :: map g l)). change (last (g x :: g y :: map g l) 0) with (last (g y :: map g l) 0). lia. }
    destruct ks as [|x l]; [congruence|]. unfold ps in Hv. change (combine (0 :: x :: l) ((x :: l) ++ [0])) with ((0, x) :: combine (x :: l) (l ++ [0])) in Hv. rewrite map_cons, zsum_cons in Hv. rewrite (Sm l x) in Hv by (intros y Hy; apply Ik in Hy; lia).
    unfold tour_cost. rewrite path_cost_app by (exact HX || discriminate). rewrite last_app by discriminate. rewrite hd_app by exact HX. fold fi la.
    assert (F0 : fr 0 = la) by reflexivity. assert (Tx : to x = g x). { unfold to. assert (1 <= x) by (apply Ik; left; reflexivity). destruct (Z.eqb_spec x 0); [lia|reflexivity]. } rewrite F0, Tx in Hv. change (hd 0 (map g (x :: l))) with (g x). lia.
  Qed.

  Lemma branch_and_bound_ok : exists p, branch_and_bound D n = Ret (Some (tour_cost d p), p) /\ tour n p /\ hd 1 p = 0 /\ forall q, tour n q -> tour_cost d p <= tour_cost d q.
  Proof using HD Hn. apply branch_and_bound_gen; [exact HD|exact Hn|]. exact reduce_bound_ok. Qed.
End Bound.
