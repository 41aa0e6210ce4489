(** * depth_first and branch_and_bound: the search *)
From Coq Require Import ZArith List Bool Lia Permutation Sorting.Sorted.
From Verif Require Import Base Py Sums Lists2 TSP_Model TSP_Spec TSP_Proofs TSP_Proofs2.
Import ListNotations.
Open Scope Z_scope.

Definition wle (a b : option Z) : Prop := wltb b a = false.
Lemma wle_refl a : wle a a.
Proof. unfold wle. destruct a; cbn; [apply Z.ltb_irrefl|reflexivity]. Qed.
Lemma wle_trans a b c : wle a b -> wle b c -> wle a c.
Proof. unfold wle. destruct a, b, c; cbn; rewrite ?Z.ltb_ge; intros; try reflexivity; try discriminate; lia. Qed.

(** The cities that are not yet visited. *)
Definition others (n : Z) (path : list Z) : list Z := filter (fun e => negb (existsb (Z.eqb e) path)) (zrange 0 n).

Lemma existsb_eqb x l : existsb (Z.eqb x) l = true <-> In x l.
Proof. rewrite existsb_exists. split; [intros (y & H & E); apply Z.eqb_eq in E; congruence|intros H; exists x; split; [exact H|apply Z.eqb_refl]]. Qed.

Lemma others_In n path x : In x (others n path) <-> 0 <= x < n /\ ~ In x path.
Proof. unfold others. rewrite filter_In, zrange_In, negb_true_iff, <- not_true_iff_false, existsb_eqb. reflexivity. Qed.

Lemma filter_filter {A} (f g : A -> bool) l : filter f (filter g l) = filter (fun x => g x && f x) l.
Proof. induction l as [|x l IH]; [reflexivity|]. cbn [filter]. destruct (g x); cbn [filter andb]; rewrite IH; reflexivity. Qed.

Lemma filter_id_in {A} (f : A -> bool) l : (forall x, In x l -> f x = true) -> filter f l = l.
Proof. induction l as [|x l IH]; intros H; [reflexivity|]. cbn [filter]. rewrite H by (left; reflexivity). rewrite IH; [reflexivity|]. intros y Hy. apply H. right. exact Hy. Qed.

Lemma filterM_ext_ret (p : Z -> outcome bool) (q : Z -> bool) l : (forall x, In x l -> p x = Ret (q x)) -> filterM p l = Ret (filter q l).
Proof. intros H. apply filterM_ret. exact H. Qed.

Section Search.
  Context (n : Z) (d : Z -> Z -> Z) (D : list (list (option Z))).
  Hypothesis HD : distances n d D.
  Hypothesis Hn : 2 <= n.

  Definition partial (path : list Z) : Prop := hd 1 path = 0 /\ NoDup path /\ forall x, In x path -> 0 <= x < n.

  Lemma choices_ok path l last : partial path -> l = Z.of_nat (length path) -> (2 <= l -> last = others n (removelast path)) -> choices_at n path l last = Ret (others n path).
  Proof using Hn.
    intros (H0 & N & R) -> HL. unfold choices_at. destruct path as [|x q]; [cbn in H0; lia|]. cbn [hd] in H0. subst x. cbn [length]. destruct (Z.eqb_spec (Z.of_nat (S (length q))) 0); [lia|].
    destruct (Z.eqb_spec (Z.of_nat (S (length q))) 1) as [E|E].
    - destruct q; [|cbn in E; lia]. f_equal. unfold others. rewrite (zrange_cons 0 n) by lia. cbn [filter existsb negb Z.eqb orb]. change (0 + 1) with 1. symmetry.
      apply filter_id_in. intros y Hy%zrange_In. destruct (Z.eqb_spec y 0); [lia|reflexivity].
    - assert (Hq : q <> []) by (intros ->; cbn in E; lia). rewrite (HL ltac:(cbn [length]; lia)). rewrite (filterM_ret _ (fun e => negb (e =? List.last (0 :: q) 0))) by (intros e _; rewrite pyget_last by discriminate; reflexivity).
      f_equal. unfold others. rewrite filter_filter. apply filter_ext. intros e. rewrite <- negb_orb. f_equal. transitivity (existsb (Z.eqb e) (removelast (0 :: q) ++ [List.last (0 :: q) 0])); [|f_equal; symmetry; apply app_removelast_last; discriminate]. rewrite existsb_app. cbn [existsb]. rewrite orb_false_r. reflexivity.
  Qed.

  Definition good (b : option Z * list Z) : Prop := b = (None, []) \/ (tour n (snd b) /\ hd 1 (snd b) = 0 /\ fst b = Some (tour_cost d (snd b))).

  (** What a search from [path] makes of the best tour so far. *)
  Definition improves (path : list Z) (best best' : option Z * list Z) : Prop :=
    good best' /\ wle (fst best') (fst best) /\ forall rest, tour n (path ++ rest) -> wle (fst best') (Some (tour_cost d (path ++ rest))).

  Lemma tour_next path rest : partial path -> Z.of_nat (length path) < n -> tour n (path ++ rest) -> exists c r, rest = c :: r /\ In c (others n path).
  Proof using Hn.
    intros (H0 & N & R) L T. destruct (tour_facts n _ T) as (N' & R' & L'). destruct rest as [|c r]; [rewrite app_nil_r in L'; lia|]. exists c, r. split; [reflexivity|]. apply others_In. split; [apply R', in_app_iff; right; left; reflexivity|].
    intros H. apply NoDup_app_inv in N' as (_ & _ & X). apply (X c H). left. reflexivity.
  Qed.

  Lemma partial_snoc path c : partial path -> In c (others n path) -> partial (path ++ [c]).
  Proof using.
    intros (H0 & N & R) Hc%others_In. split; [destruct path; [cbn in H0; lia|exact H0]|]. split.
    - apply NoDup_app_intro; [exact N|repeat constructor; intros []|]. intros x Hx [<-|[]]. apply (proj2 Hc Hx).
    - intros x [Hx|[<-|[]]]%in_app_iff; [apply R, Hx|apply Hc].
  Qed.

  Lemma full_tour path : partial path -> Z.of_nat (length path) = n -> tour n path.
  Proof using Hn.
    intros (H0 & N & R) L. apply NoDup_Permutation_bis; [exact N|rewrite zrange_length; lia|]. intros x Hx. apply zrange_In, R, Hx.
  Qed.

  Lemma leaf_ok path best : partial path -> Z.of_nat (length path) = n -> good best ->
    exists best', (do total <- cost D path n; Ret (if wltb total (fst best) then (total, path) else best)) = Ret best' /\ improves path best best'.
  Proof using HD Hn.
    intros P L G. assert (T := full_tour path P L). rewrite (cost_tour n d D HD path Hn T). cbn [bind]. eexists. split; [reflexivity|].
    assert (Q : forall rest, tour n (path ++ rest) -> rest = []). { intros rest T'. destruct (tour_facts n _ T') as (_ & _ & L'). rewrite app_length in L'. destruct rest; [reflexivity|cbn in L'; lia]. }
    destruct (wltb (Some (tour_cost d path)) (fst best)) eqn:E.
    - split; [right; cbn [fst snd]; split; [exact T|]; split; [apply P|reflexivity]|]. cbn [fst]. split; [unfold wle; destruct (fst best); cbn in *; [rewrite Z.ltb_lt in E; apply Z.ltb_ge; lia|reflexivity]|]. intros rest T'. rewrite (Q rest T'), app_nil_r. apply wle_refl.
    - split; [exact G|]. split; [apply wle_refl|]. intros rest T'. rewrite (Q rest T'), app_nil_r. exact E.
  Qed.

  Lemma backtrack_ok : forall fuel path l last best, partial path -> l = Z.of_nat (length path) -> (2 <= l -> last = others n (removelast path)) -> l + Z.of_nat fuel = n -> good best ->
    exists best', backtrack D n fuel path l last best = Ret best' /\ improves path best best'.
  Proof using HD Hn.
    induction fuel as [|fuel IH]; intros path l last best P El HL Hf G; cbn [backtrack].
    - destruct (Z.eqb_spec l n); [|lia]. apply leaf_ok; [exact P|lia|exact G].
    - destruct (Z.eqb_spec l n); [lia|]. rewrite (choices_ok path l last P El HL). cbn [bind].
      assert (Loop : forall cs, incl cs (others n path) -> forall best, good best -> exists best', foldM (fun best c => backtrack D n fuel (path ++ [c]) (l + 1) (others n path) best) cs best = Ret best' /\
        good best' /\ wle (fst best') (fst best) /\ forall c rest, In c cs -> tour n (path ++ c :: rest) -> wle (fst best') (Some (tour_cost d (path ++ c :: rest)))).
      { induction cs as [|c cs IHc]; intros Sub b Gb; cbn [foldM]; [exists b; split; [reflexivity|]; split; [exact Gb|]; split; [apply wle_refl|intros c rest []]|].
        destruct (IH (path ++ [c]) (l + 1) (others n path) b) as (b1 & E1 & G1 & L1 & T1).
        - apply partial_snoc; [exact P|apply Sub; left; reflexivity].
        - rewrite app_length. cbn [length]. lia.
        - intros _. rewrite removelast_last. reflexivity.
        - lia.
        - exact Gb.
        - rewrite E1. cbn [bind]. destruct (IHc (fun x Hx => Sub x (or_intror Hx)) b1 G1) as (b2 & E2 & G2 & L2 & T2). exists b2. split; [exact E2|]. split; [exact G2|]. split; [exact (wle_trans _ _ _ L2 L1)|].
          intros c' rest [<-|Hc] T; [|apply T2; assumption]. apply (wle_trans _ _ _ L2). specialize (T1 rest). rewrite <- app_assoc in T1. apply T1. exact T. }
      destruct (Loop (others n path) (incl_refl _) best G) as (b & E & G' & L' & T'). exists b. split; [exact E|]. split; [exact G'|]. split; [exact L'|].
      intros rest T. destruct (tour_next path rest P ltac:(lia) T) as (c & r & -> & Hc). apply T'; assumption.
  Qed.

  (** From the best tour starting at 0 to the best tour. *)
  Lemma optimal b : improves [0] (None, []) b -> exists p, b = (Some (tour_cost d p), p) /\ tour n p /\ hd 1 p = 0 /\ forall q, tour n q -> tour_cost d p <= tour_cost d q.
  Proof using Hn.
    intros (G & _ & T). assert (Z0 : forall q, tour n q -> exists r, tour n (0 :: r) /\ tour_cost d (0 :: r) = tour_cost d q).
    { intros q Tq. destruct (tour_facts n q Tq) as (_ & R & _). assert (I0 : In 0 q) by (apply R; lia). apply in_split in I0 as (A & B & ->). exists (B ++ A). split.
      - unfold tour in *. rewrite <- Tq. change (0 :: B ++ A) with ((0 :: B) ++ A). apply Permutation_app_comm.
      - change (0 :: B ++ A) with ((0 :: B) ++ A). apply tour_cost_rotate. }
    destruct G as [->|(T1 & T2 & T3)].
    - exfalso. destruct (Z0 (zrange 0 n)) as (r & Tr & _); [unfold tour; reflexivity|]. specialize (T r Tr). unfold wle in T. cbn in T. discriminate.
    - destruct b as [c p]. cbn [fst snd] in *. subst c. exists p. split; [reflexivity|]. split; [exact T1|]. split; [exact T2|]. intros q Tq. destruct (Z0 q Tq) as (r & Tr & <-). specialize (T r Tr). unfold wle in T. cbn [wltb app] in T. apply Z.ltb_ge in T. exact T.
  Qed.

  Lemma partial_0 : partial [0].
  Proof using Hn. split; [reflexivity|]. split; [repeat constructor; intros []|]. intros x [<-|[]]. lia. Qed.

  Lemma depth_first_ok : exists p, depth_first D n = Ret (Some (tour_cost d p), p) /\ tour n p /\ hd 1 p = 0 /\ forall q, tour n q -> tour_cost d p <= tour_cost d q.
  Proof using HD Hn.
    unfold depth_first. destruct (Z.to_nat n) as [|f] eqn:Ef; [lia|]. cbn [backtrack]. destruct (Z.eqb_spec 0 n); [lia|]. unfold choices_at. cbn [Z.eqb bind foldM app].
    destruct (backtrack_ok f [0] 1 [0] (None, []) partial_0 eq_refl ltac:(lia) ltac:(lia) (or_introl eq_refl)) as (b & E & I). change (0 + 1) with 1. rewrite E. cbn [bind]. destruct (optimal b I) as (p & -> & H). exists p. split; [reflexivity|exact H].
  Qed.

  (** ** Branch and bound, given a valid bound *)
  Hypothesis Hbound : forall path, partial path -> exists b, reduce_bound D n path = Ret (Some b) /\ forall rest, tour n (path ++ rest) -> b <= tour_cost d (path ++ rest).

  Lemma bc_insert_perm x l : Permutation (bc_insert x l) (x :: l).
  Proof using. induction l as [|y l IH]; cbn [bc_insert]; [reflexivity|]. destruct (bc_ltb y x); [|reflexivity]. rewrite IH. apply perm_swap. Qed.
  Lemma bc_sort_perm l : Permutation (bc_sort l) l.
  Proof using. induction l as [|x l IH]; cbn [bc_sort]; [reflexivity|]. rewrite bc_insert_perm, IH. reflexivity. Qed.
  Lemma bc_insert_sorted x l : StronglySorted (fun a b => wle (fst a) (fst b)) l -> StronglySorted (fun a b => wle (fst a) (fst b)) (bc_insert x l).
  Proof using.
    induction l as [|y l IH]; intros S; cbn [bc_insert]; [repeat constructor|]. inversion S as [|? ? S1 S2]; subst. destruct (bc_ltb y x) eqn:E.
    - constructor; [apply IH, S1|]. rewrite Forall_forall. intros z Hz. apply (Permutation_in z (bc_insert_perm x l)) in Hz as [<-|Hz]; [|rewrite Forall_forall in S2; apply S2, Hz].
      unfold bc_ltb in E. unfold wle. destruct (wltb (fst y) (fst x)) eqn:E1; [|apply andb_true_iff in E as [E _]; apply negb_true_iff in E; exact E]. destruct (fst y), (fst x); cbn in *; try discriminate; try reflexivity. apply Z.ltb_lt in E1. apply Z.ltb_ge. lia.
    - assert (W : wle (fst x) (fst y)). { unfold bc_ltb in E. apply orb_false_iff in E as [E _]. exact E. }
      constructor; [exact S|]. constructor; [exact W|]. rewrite Forall_forall in *. intros z Hz. exact (wle_trans _ _ _ W (S2 z Hz)).
  Qed.
  Lemma bc_sort_sorted l : StronglySorted (fun a b => wle (fst a) (fst b)) (bc_sort l).
  Proof using. induction l as [|x l IH]; cbn [bc_sort]; [constructor|]. apply bc_insert_sorted, IH. Qed.

  Lemma bb_ok : forall fuel path l last best, partial path -> l = Z.of_nat (length path) -> (2 <= l -> last = others n (removelast path)) -> l + Z.of_nat fuel = n -> good best ->
    exists best', bb_backtrack D n fuel path l last best = Ret best' /\ improves path best best'.
  Proof using HD Hn Hbound.
    induction fuel as [|fuel IH]; intros path l last best P El HL Hf G; cbn [bb_backtrack].
    - destruct (Z.eqb_spec l n); [|lia]. apply leaf_ok; [exact P|lia|exact G].
    - destruct (Z.eqb_spec l n); [lia|]. rewrite (choices_ok path l last P El HL). cbn [bind].
      assert (EL : exists L, mapM (fun x => do b <- reduce_bound D n (path ++ [x]); Ret (b, x)) (others n path) = Ret L /\ (forall w c, In (w, c) L -> In c (others n path) /\ exists b, w = Some b /\ forall rest, tour n (path ++ c :: rest) -> b <= tour_cost d (path ++ c :: rest)) /\ forall c, In c (others n path) -> exists w, In (w, c) L).
      { assert (Q : forall cs, incl cs (others n path) -> exists L, mapM (fun x => do b <- reduce_bound D n (path ++ [x]); Ret (b, x)) cs = Ret L /\ (forall w c, In (w, c) L -> In c cs /\ exists b, w = Some b /\ forall rest, tour n (path ++ c :: rest) -> b <= tour_cost d (path ++ c :: rest)) /\ forall c, In c cs -> exists w, In (w, c) L); [|exact (Q _ (incl_refl _))].
        induction cs as [|c cs IHc]; intros Sub; cbn [mapM]; [exists []; split; [reflexivity|]; split; [intros w c []|intros c []]|].
        destruct (Hbound (path ++ [c])) as (b & Eb & Hb); [apply partial_snoc; [exact P|apply Sub; left; reflexivity]|]. rewrite Eb. cbn [bind]. destruct (IHc (fun x Hx => Sub x (or_intror Hx))) as (L & E & A & B). rewrite E. cbn [bind].
        exists ((Some b, c) :: L). split; [reflexivity|]. split.
        - intros w c' [[= <- <-]|H]; [split; [left; reflexivity|]; exists b; split; [reflexivity|]; intros rest T; specialize (Hb rest); rewrite <- app_assoc in Hb; apply Hb, T|]. destruct (A w c' H) as [A1 A2]. split; [right; exact A1|exact A2].
        - intros c' [<-|H]; [exists (Some b); left; reflexivity|]. destruct (B c' H) as (w & Hw). exists w. right. exact Hw. }
      destruct EL as (L & E & A & B). rewrite E. cbn [bind]. set (f := fun c best => bb_backtrack D n fuel (path ++ [c]) (l + 1) (others n path) best).
      assert (Loop : forall L', StronglySorted (fun a b => wle (fst a) (fst b)) L' -> incl L' L -> forall best, good best -> exists best', bound_loop f L' best = Ret best' /\
        good best' /\ wle (fst best') (fst best) /\ forall w c rest, In (w, c) L' -> tour n (path ++ c :: rest) -> wle (fst best') (Some (tour_cost d (path ++ c :: rest)))).
      { induction L' as [|[w c] L' IHc]; intros S Sub b Gb; cbn [bound_loop]; [exists b; split; [reflexivity|]; split; [exact Gb|]; split; [apply wle_refl|intros w c rest []]|].
        inversion S as [|? ? S1 S2]; subst. destruct (wltb w (fst b)) eqn:Ew; cbn [negb].
        - assert (Ic : In c (others n path)) by (apply (A w c), Sub; left; reflexivity).
          destruct (IH (path ++ [c]) (Z.of_nat (length path) + 1) (others n path) b) as (b1 & E1 & G1 & L1 & T1).
          + apply partial_snoc; [exact P|exact Ic].
          + rewrite app_length. cbn [length]. lia.
          + intros _. rewrite removelast_last. reflexivity.
          + lia.
          + exact Gb.
          + unfold f at 1. rewrite E1. cbn [bind]. destruct (IHc S1 (fun x Hx => Sub x (or_intror Hx)) b1 G1) as (b2 & E2 & G2 & L2 & T2). exists b2. split; [exact E2|]. split; [exact G2|]. split; [exact (wle_trans _ _ _ L2 L1)|].
            intros w' c' rest [[= <- <-]|Hc] T; [|apply (T2 w'); assumption]. apply (wle_trans _ _ _ L2). specialize (T1 rest). rewrite <- app_assoc in T1. apply T1. exact T.
        - exists b. split; [reflexivity|]. split; [exact Gb|]. split; [apply wle_refl|]. intros w' c' rest Hc T.
          assert (W : wle w w'). { destruct Hc as [[= <- <-]|Hc]; [apply wle_refl|]. rewrite Forall_forall in S2. exact (S2 _ Hc). }
          destruct (A w' c' (Sub _ Hc)) as (_ & v & -> & Hv). specialize (Hv rest T). apply (wle_trans _ _ _ Ew), (wle_trans _ _ _ W). unfold wle. cbn. apply Z.ltb_ge. exact Hv. }
      destruct (Loop (bc_sort L) (bc_sort_sorted L) (fun x Hx => Permutation_in x (bc_sort_perm L) Hx) best G) as (b & Eb & G' & L' & T'). exists b. split; [exact Eb|]. split; [exact G'|]. split; [exact L'|].
      intros rest T. destruct (tour_next path rest P ltac:(lia) T) as (c & r & -> & Hc). destruct (B c Hc) as (w & Hw). apply (T' w); [|exact T]. apply (Permutation_in _ (Permutation_sym (bc_sort_perm L))). exact Hw.
  Qed.

  Lemma branch_and_bound_gen : exists p, branch_and_bound D n = Ret (Some (tour_cost d p), p) /\ tour n p /\ hd 1 p = 0 /\ forall q, tour n q -> tour_cost d p <= tour_cost d q.
  Proof using HD Hn Hbound.
    unfold branch_and_bound. destruct (Z.to_nat n) as [|f] eqn:Ef; [lia|]. cbn [bb_backtrack]. destruct (Z.eqb_spec 0 n); [lia|]. unfold choices_at. cbn [Z.eqb bind mapM app].
    destruct (Hbound [0] partial_0) as (b0 & Eb & _). rewrite Eb. cbn [bind bc_sort bc_insert bound_loop fst wltb negb].
    destruct (bb_ok f [0] 1 [0] (None, []) partial_0 eq_refl ltac:(lia) ltac:(lia) (or_introl eq_refl)) as (b & E & I). change (0 + 1) with 1. rewrite E. cbn [bind]. destruct (optimal b I) as (p & -> & H). exists p. split; [reflexivity|exact H].
  Qed.
End Search.
