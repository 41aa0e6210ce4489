(** * Farthest insertion, annealing and random exchanges *)
From Coq Require Import QArith ZArith List Bool Lia Permutation.
From Verif Require NT_Euler.
From Verif Require Import Base Py Sums Dict Lists2 TSP_Model TSP_Spec TSP_Proofs TSP_Proofs2 TSP_Proofs3 TSP_Proofs5.
Import ListNotations.
Open Scope Z_scope.

Fixpoint chain (x : Z) (l : list Z) (z : Z) : list (Z * Z) := match l with [] => [(x, z)] | y :: l => (x, y) :: chain y l z end.

Lemma chain_insert f : forall l x z t h, In (t, h) (chain x l z) -> exists l' E, Permutation (chain x l z) ((t, h) :: E) /\ Permutation (chain x l' z) ((t, f) :: (f, h) :: E) /\ Permutation l' (f :: l).
Proof.
  induction l as [|y l IH]; intros x z t h H; cbn [chain] in H.
  - destruct H as [[= <- <-]|[]]. exists [f], []. cbn. split; [|split]; reflexivity.
  - destruct H as [[= <- <-]|H].
    + exists (f :: y :: l), (chain y l z). cbn [chain]. split; [reflexivity|]. split; [reflexivity|]. reflexivity.
    + destruct (IH y z t h H) as (l' & E & P1 & P2 & P3). exists (y :: l'), ((x, y) :: E). cbn [chain]. split; [rewrite P1; apply perm_swap|]. split; [rewrite P2; rewrite perm_swap; apply perm_skip, perm_swap|]. rewrite P3. apply perm_swap.
Qed.

Lemma chain_combine : forall l x z, chain x l z = combine (x :: l) (l ++ [z]).
Proof. induction l as [|y l IH]; intros x z; [reflexivity|]. cbn [chain]. rewrite IH. reflexivity. Qed.

Lemma chain_fst l x z : map fst (chain x l z) = x :: l.
Proof. rewrite chain_combine. apply combine_fst. rewrite app_length. cbn. lia. Qed.
Lemma chain_snd l x z : map snd (chain x l z) = l ++ [z].
Proof. rewrite chain_combine. apply combine_snd. rewrite app_length. cbn. lia. Qed.

Lemma chain_sum d : forall l x z, zsum (map (fun '(i, j) => d i j) (chain x l z)) = path_cost d (x :: l) + d (last (x :: l) 0) z.
Proof.
  induction l as [|y l IH]; intros x z; [cbn; lia|]. cbn [chain]. rewrite map_cons, zsum_cons, IH. change (path_cost d (x :: y :: l)) with (d x y + path_cost d (y :: l)). change (last (x :: y :: l) 0) with (last (y :: l) 0). lia.
Qed.

Lemma best_by_ok {A} better (l : list A) : l <> [] -> exists x, best_by better l = Ret x /\ In x l.
Proof.
  destruct l as [|x l]; [congruence|]. intros _. eexists. split; [reflexivity|]. revert x. induction l as [|y l IH]; intros x; cbn [fold_left]; [left; reflexivity|]. destruct (better y x); [right; apply IH|]. destruct (IH x) as [E|I]; [left; exact E|right; right; exact I].
Qed.

Lemma pair_eqb_spec a b : reflect (a = b) (pair_eqb a b).
Proof. destruct a as (x, y), b as (x', y'). unfold pair_eqb. cbn [fst snd]. destruct (Z.eqb_spec x x'), (Z.eqb_spec y y'); constructor; congruence. Qed.

Lemma eadd_new edges e : ~ In e edges -> eadd edges e = edges ++ [e].
Proof. intros H. unfold eadd. destruct (existsb (pair_eqb e) edges) eqn:E; [|reflexivity]. apply existsb_exists in E as (y & Hy & Ey). destruct (pair_eqb_spec e y); [subst; contradiction|discriminate]. Qed.

Lemma ediscard_perm edges e E : NoDup edges -> Permutation edges (e :: E) -> Permutation (ediscard edges e) E.
Proof.
  intros N P. assert (N2 : NoDup (e :: E)) by (apply (Permutation_NoDup P N)). inversion N2 as [|? ? Ne NE]; subst. apply NoDup_Permutation; [apply NoDup_filter, N|exact NE|]. intros x. unfold ediscard. rewrite filter_In. split.
  - intros (I & H). apply (Permutation_in x P) in I. destruct I as [->|I]; [|exact I]. destruct (pair_eqb_spec x x); [discriminate|congruence].
  - intros I. split; [apply (Permutation_in x (Permutation_sym P)); right; exact I|]. destruct (pair_eqb_spec e x); [subst; contradiction|reflexivity].
Qed.

Lemma dict_other (es : list (Z * Z)) : forall d k, ~ In k (map fst es) -> dget (fold_left (fun d '(u, v) => dset d u v) es d) k = dget d k.
Proof. induction es as [|(a, b) es IH]; intros d k H; [reflexivity|]. cbn [fold_left]. cbn [map fst In] in H. rewrite IH by tauto. apply dget_dset_other. tauto. Qed.
Lemma dict_get (es : list (Z * Z)) : NoDup (map fst es) -> forall d k v, In (k, v) es -> dget (fold_left (fun d '(u, v) => dset d u v) es d) k = Some v.
Proof.
  induction es as [|(a, b) es IH]; intros N d k v H; [contradiction|]. cbn [map fst] in N. inversion N as [|? ? N1 N2]; subst. cbn [fold_left]. destruct H as [[= -> ->]|H]; [|apply IH; assumption]. rewrite dict_other by exact N1. apply dget_dset_same.
Qed.

Lemma follow_ok next : forall l x path fuel, (forall u v, In (u, v) (chain x l 0) -> dget next u = Some v) -> ~ In 0 l -> (length l <= fuel)%nat -> follow fuel next path (hd 0 l) = Ret (path ++ l).
Proof.
  induction l as [|y l IH]; intros x path fuel H N L.
  - cbn [hd]. rewrite app_nil_r. destruct fuel; reflexivity.
  - cbn [hd length] in *. destruct fuel as [|fuel]; [lia|]. cbn [follow]. destruct (Z.eqb_spec y 0) as [->|Ny]; [exfalso; apply N; left; reflexivity|].
    assert (E : dget next y = Some (hd 0 l)) by (apply H; cbn [chain]; right; destruct l; cbn [chain hd]; left; reflexivity).
    unfold dgetM. rewrite E. cbn [bind]. rewrite (IH y) with (fuel := fuel); [rewrite <- app_assoc; reflexivity|intros u v I; apply H; cbn [chain]; right; exact I|intros I; apply N; right; exact I|lia].
Qed.

Lemma NoDup_of_fst {A B} (l : list (A * B)) : NoDup (map fst l) -> NoDup l.
Proof. apply NoDup_map_inv. Qed.

Section FI.
  Context (n : Z) (d : Z -> Z -> Z) (D : list (list (option Z))).
  Hypothesis HD : distances n d D.

  Definition csum (l : list Z) : Z := match l with [] => 0 | _ => tour_cost d (0 :: l) end.

  Lemma insertion_ok f l e : 0 <= f < n -> NoDup (0 :: l) -> (forall x, In x (0 :: l) -> 0 <= x < n) -> ~ In f (0 :: l) -> In e (chain 0 l 0) ->
    insertion D f e = Ret (Some (d (fst e) f + d f (snd e) - (if match l with [] => true | _ => false end then 0 else d (fst e) (snd e)))).
  Proof using HD.
    intros Hf N R Nf He. destruct e as (u, v). cbn [fst snd].
    assert (Iu : In u (0 :: l)) by (rewrite <- (chain_fst l 0 0); apply (in_map fst) in He; exact He).
    assert (Iv : In v (0 :: l)) by (apply (in_map snd) in He; rewrite chain_snd in He; cbn [snd] in He; apply in_app_iff in He; destruct He as [I|[<-|[]]]; [right; exact I|left; reflexivity]).
    unfold insertion. rewrite (entry_ok n d D HD) by first [assumption | apply R; assumption | intros ->; contradiction]. cbn [bind]. rewrite (entry_ok n d D HD) by first [assumption | apply R; assumption | intros ->; contradiction]. cbn [bind].
    destruct l as [|y l].
    - destruct He as [[= <- <-]|[]]. cbn. rewrite Z.sub_0_r. reflexivity.
    - assert (Nuv : u <> v). { apply NoDup_cons_iff in N as (N1 & N2). apply (closed_neq (y :: l) 0 0); [constructor; assumption|exact N1|discriminate|]. rewrite <- chain_combine. exact He. }
      destruct (pair_eqb_spec (u, v) (0, 0)) as [E|E]; [congruence|]. rewrite (entry_ok n d D HD) by first [assumption | apply R; assumption]. reflexivity.
  Qed.

  Lemma insert_loop_ok : forall fuel left dist edges l, (length left <= fuel)%nat -> Permutation (0 :: l ++ left) (zrange 0 n) -> (forall v, In v left -> exists w, dget dist v = Some w) -> Permutation edges (chain 0 l 0) ->
    exists edges' l', insert_loop D fuel left dist edges (Some (csum l)) = Ret (edges', Some (csum l')) /\ Permutation (0 :: l') (zrange 0 n) /\ Permutation edges' (chain 0 l' 0).
  Proof using HD.
    induction fuel as [|fuel IH]; intros left dist edges l L P Hd Pe; (assert (Hl : left = [] \/ left <> []) by (destruct left; intuition discriminate)); (destruct Hl as [->|Hl]; [exists edges, l; cbn [insert_loop]; rewrite app_nil_r in P; auto|]); [destruct left; [congruence|cbn in L; lia]|].
    assert (N : NoDup (0 :: l ++ left)) by (apply (Permutation_NoDup (Permutation_sym P)), zrange_NoDup).
    assert (R : forall x, In x (0 :: l ++ left) -> 0 <= x < n) by (intros x Hx; apply zrange_In, (Permutation_in x P), Hx).
    assert (N0 : NoDup (0 :: l) /\ NoDup left /\ forall x, In x (0 :: l) -> ~ In x left). { change (0 :: l ++ left) with ((0 :: l) ++ left) in N. apply NoDup_app_inv in N. exact N. }
    destruct N0 as (Nl & Nleft & Dj).
    assert (Rl : forall x, In x (0 :: l) -> 0 <= x < n) by (intros x Hx; apply R; change (In x ((0 :: l) ++ left)); apply in_app_iff; left; exact Hx).
    cbn [insert_loop]. match goal with |- context [match left with [] => _ | _ :: _ => ?X end] => replace (match left with [] => Ret (edges, Some (csum l)) | _ :: _ => X end) with X by (destruct left; [congruence|reflexivity]) end.
    rewrite (mapM_ret _ (fun v => (match dget dist v with Some x => x | None => None end, v))) by (intros v Hv; destruct (Hd v Hv) as (w & E); unfold dgetM; rewrite E; reflexivity). cbn [bind].
    destruct (best_by_ok (fun a b => bc_ltb b a) (map (fun v => (match dget dist v with Some x => x | None => None end, v)) left)) as ((w0 & f) & Ef & If). { intros E. apply map_eq_nil in E. contradiction. }
    rewrite Ef. cbn [bind]. apply in_map_iff in If as (f' & [= _ ->] & If). assert (Hf : 0 <= f < n) by (apply R; right; apply in_app_iff; right; exact If). assert (Nf : ~ In f (0 :: l)) by (intros I; exact (Dj f I If)).
    set (c := fun e : Z * Z => d (fst e) f + d f (snd e) - (if match l with [] => true | _ => false end then 0 else d (fst e) (snd e))).
    rewrite (mapM_ret _ (fun e => (Some (c e), e))) by (intros e He; rewrite (insertion_ok f l e Hf Nl Rl Nf) by (apply (Permutation_in e Pe), He); reflexivity). cbn [bind].
    destruct (best_by_ok ec_ltb (map (fun e => (Some (c e), e)) edges)) as ((w & (t & h)) & Ew & Iw). { intros E. apply map_eq_nil in E. subst. apply Permutation_nil in Pe. destruct l; discriminate. }
    rewrite Ew. cbn [bind]. apply in_map_iff in Iw as (e & [= <- ->] & Ie). assert (Ic := Permutation_in _ Pe Ie). destruct (chain_insert f l 0 0 t h Ic) as (l' & E & P1 & P2 & P3).
    assert (Fe : NoDup edges) by (apply NoDup_of_fst; apply (Permutation_NoDup (Permutation_map fst (Permutation_sym Pe))); rewrite chain_fst; exact Nl).
    assert (Fst : forall u v, In (u, v) edges -> In u (0 :: l)) by (intros u v I; apply (Permutation_in _ Pe), (in_map fst) in I; rewrite chain_fst in I; exact I).
    assert (Snd : forall u v, In (u, v) edges -> In v (0 :: l)) by (intros u v I; apply (Permutation_in _ Pe), (in_map snd) in I; rewrite chain_snd in I; cbn [snd] in I; apply in_app_iff in I; destruct I as [I|[<-|[]]]; [right; exact I|left; reflexivity]).
    assert (Nt : f <> t) by (intros ->; apply Nf, (Fst _ _ Ie)).
    set (left' := filter (fun x => negb (x =? f)) left).
    assert (Pleft : Permutation left (f :: left')). { apply NoDup_Permutation; [exact Nleft|constructor; [unfold left'; rewrite filter_In; intros (_ & X); rewrite Z.eqb_refl in X; discriminate|apply NoDup_filter, Nleft]|]. intros x. cbn [In]. unfold left'. rewrite filter_In. destruct (Z.eqb_spec x f) as [->|]; cbn [negb]; intuition congruence. }
    assert (Dst : forall l0 dist0, incl l0 left -> (forall v, In v left -> exists w, dget dist0 v = Some w) -> exists dist', foldM (fun dist x => do a <- dgetM dist x; do b <- entry D f x; Ret (dset dist x (if wltb b a then b else a))) l0 dist0 = Ret dist' /\ (forall v, In v left -> exists w, dget dist' v = Some w)).
    { induction l0 as [|x l0 IH0]; intros dist0 Hi H0; [exists dist0; split; [reflexivity|exact H0]|]. cbn [foldM]. assert (Ix : In x left) by (apply Hi; left; reflexivity). destruct (H0 x Ix) as (a & Ea). unfold dgetM at 1. rewrite Ea. cbn [bind]. rewrite (entry_get n d D HD) by (assumption || (apply R; right; apply in_app_iff; right; exact Ix)). cbn [bind]. apply IH0; [intros z Hz; apply Hi; right; exact Hz|]. intros v Hv. rewrite dget_dset. destruct (Z.eqb_spec x v); [eexists; reflexivity|apply H0, Hv]. }
    destruct (Dst left' dist) as (dist' & -> & Hd'); [intros x Hx; apply filter_In in Hx; apply Hx|exact Hd|]. cbn [bind].
    assert (N1 : ~ In (t, f) edges) by (intros I; apply Nf, (Snd _ _ I)). assert (N2 : ~ In (f, h) (edges ++ [(t, f)])) by (rewrite in_app_iff; cbn [In]; intros [I|[[= E1 E2]|[]]]; [apply Nf, (Fst _ _ I)|congruence]).
    rewrite (eadd_new _ _ N1), (eadd_new _ _ N2).
    assert (Cw : csum l + c (t, h) = csum l').
    { assert (El' : l' <> []) by (intros ->; apply Permutation_nil in P3; discriminate). assert (S1 := chain_sum d l 0 0). assert (S2 := chain_sum d l' 0 0). rewrite (NT_Euler.zsum_perm _ _ (Permutation_map _ P1)) in S1. rewrite (NT_Euler.zsum_perm _ _ (Permutation_map _ P2)) in S2. cbn [map] in S1, S2. rewrite !zsum_cons in S1. rewrite !zsum_cons in S2. unfold c. cbn [fst snd]. unfold csum. destruct l' as [|y' l']; [congruence|]. unfold tour_cost at 2 || unfold tour_cost. change (hd 0 (0 :: y' :: l')) with 0.
      destruct l as [|y l].
      - assert (E = []) as ->. { apply Permutation_length in P1. cbn in P1. destruct E; [reflexivity|cbn in P1; lia]. } cbn [map] in S2. change (zsum []) with 0 in S2. lia.
      - unfold tour_cost. change (hd 0 (0 :: y :: l)) with 0. lia. }
    change (wadd (Some (csum l)) (Some (c (t, h)))) with (Some (csum l + c (t, h))). rewrite Cw. apply IH.
    - apply Permutation_length in Pleft. cbn [length] in Pleft. lia.
    - rewrite <- P. constructor. rewrite P3, Pleft. cbn [app]. apply Permutation_middle.
    - intros v Hv. apply Hd'. unfold left' in Hv. apply filter_In in Hv. apply Hv.
    - rewrite P2. apply ediscard_perm.
      + apply NoDup_app_intro; [apply NoDup_app_intro; [exact Fe|constructor; [intros []|constructor]|intros x Hx [<-|[]]; contradiction]|constructor; [intros []|constructor]|intros x Hx [<-|[]]; contradiction].
      + rewrite <- app_assoc. cbn [app]. rewrite Pe, P1. cbn [app]. constructor. apply (Permutation_app_comm E [(t, f); (f, h)]).
  Qed.

  Lemma insertion_edges_ok : 1 <= n -> exists edges l, insertion_edges D n = Ret (edges, Some (csum l)) /\ tour n (0 :: l) /\ Permutation edges (chain 0 l 0).
  Proof using HD.
    intros Hn. unfold insertion_edges. cbv zeta.
    assert (Dst : forall l0 dist0, incl l0 (zrange 1 n) -> exists dist', foldM (fun dist v => do w <- entry D 0 v; Ret (dset dist v w)) l0 dist0 = Ret dist' /\ (forall v, In v l0 \/ (exists w, dget dist0 v = Some w) -> exists w, dget dist' v = Some w)).
    { induction l0 as [|x l0 IH]; intros dist0 Hi; [exists dist0; split; [reflexivity|intros v [[]|H]; exact H]|]. cbn [foldM]. assert (Ix : In x (zrange 1 n)) by (apply Hi; left; reflexivity). apply zrange_In in Ix. rewrite (entry_get n d D HD) by lia. cbn [bind].
      set (w := nth (Z.to_nat x) (nth (Z.to_nat 0) D []) None). destruct (IH (dset dist0 x w)) as (dist' & E & H); [intros z Hz; apply Hi; right; exact Hz|]. exists dist'. split; [exact E|]. intros v Hv. apply H. rewrite dget_dset. destruct (Z.eqb_spec x v) as [->|Nx]; [right; eexists; reflexivity|]. destruct Hv as [[Ex|I]|(w' & E')]; [congruence|left; exact I|right; exists w'; exact E']. }
    destruct (Dst (zrange 1 n) []) as (dist & -> & Hd); [apply incl_refl|]. cbn [bind]. destruct (insert_loop_ok (Z.to_nat n) (zrange 1 n) dist [(0, 0)] []) as (edges & l & E & P & Pe).
    - rewrite zrange_length. lia.
    - cbn [app]. rewrite (zrange_cons 0 n) by lia. reflexivity.
    - intros v Hv. apply Hd. left. exact Hv.
    - reflexivity.
    - exists edges, l. split; [exact E|]. split; [exact P|exact Pe].
  Qed.

  Lemma farthest_insertion_ok : 1 <= n -> exists l, farthest_insertion D n = Ret (Some (csum l), 0 :: l) /\ tour n (0 :: l).
  Proof using HD.
    intros Hn. destruct (insertion_edges_ok Hn) as (edges & l & E & T & Pe). exists l. split; [|exact T]. unfold farthest_insertion. rewrite E. cbn [bind].
    destruct (tour_facts n _ T) as (N & R & L). apply NoDup_cons_iff in N as (N0 & Nl).
    set (next := fold_left (fun d '(u, v) => dset d u v) edges []).
    assert (Hnext : forall u v, In (u, v) (chain 0 l 0) -> dget next u = Some v).
    { intros u v I. apply dict_get; [|apply (Permutation_in _ (Permutation_sym Pe)), I]. apply (Permutation_NoDup (Permutation_map fst (Permutation_sym Pe))). rewrite chain_fst. constructor; assumption. }
    assert (H0 : dget next 0 = Some (hd 0 l)) by (apply Hnext; destruct l; left; reflexivity). unfold dgetM. rewrite H0. cbn [bind].
    rewrite (follow_ok next l 0); [reflexivity|exact Hnext|exact N0|]. cbn [length] in L. lia.
  Qed.
End FI.

Lemma reverse_slice_split sol i j : 0 <= i + 1 -> i <= j -> exists A B C, sol = A ++ B ++ C /\ reverse_slice sol i j = A ++ rev B ++ C.
Proof.
  intros Hi Hj. unfold reverse_slice. set (a := Z.to_nat (i + 1)). set (b := Z.to_nat (j + 1)). assert (a <= b)%nat by (unfold a, b; lia). exists (firstn a sol), (skipn a (firstn b sol)), (skipn b sol). split; [|reflexivity].
  rewrite <- (firstn_skipn b sol) at 1. rewrite <- (firstn_skipn a (firstn b sol)) at 1. rewrite firstn_firstn, Nat.min_l by lia. rewrite app_assoc. reflexivity.
Qed.

Lemma exchange_tour n A B C : tour n (A ++ B ++ C) -> tour n (A ++ rev B ++ C).
Proof. unfold tour. intros <-. apply Permutation_app_head, Permutation_app_tail. apply Permutation_sym, Permutation_rev. Qed.

Lemma run_first {S R} (step : S -> S + outcome R) r fuel s : step s = inr r -> run step fuel s = r.
Proof. intros E. unfold run. replace (wl step fuel s) with (inr r : S + outcome R); [reflexivity|]. symmetry. induction fuel as [|fuel IH]; cbn [wl]; [exact E|]. rewrite IH. reflexivity. Qed.

Section SA.
  Context (n : Z) (d : Z -> Z -> Z) (D : list (list (option Z))).
  Hypothesis HD : distances n d D.
  Hypothesis Hn : 3 <= n.

  Lemma anneal_step_ok s c k j r : let '(sol, v, b) := s in tour n sol -> tour n b -> v = Some (tour_cost d b) -> tour_cost d b <= c -> 0 <= j <= k -> Qeq_bool r 0 = false ->
    exists sol' b', anneal_step D n s (k, j, r) = Ret (sol', Some (tour_cost d b'), b') /\ tour n sol' /\ tour n b' /\ tour_cost d b' <= c.
  Proof using HD Hn.
    destruct s as ((sol, v), b). intros Ts Tb -> Hc Hjk Hr. unfold anneal_step, reverse_range. destruct (Z.ltb_spec n 3); [lia|]. destruct (reverse_slice_split sol (j - 1) k ltac:(lia) ltac:(lia)) as (A & B & C & -> & ->). assert (T' := exchange_tour n A B C Ts).
    rewrite (cost_tour n d D HD _ ltac:(lia) T'). cbn [bind]. rewrite (cost_tour n d D HD _ ltac:(lia) Ts). cbn [bind]. cbn [wltb].
    destruct (Z.ltb_spec (tour_cost d (A ++ rev B ++ C)) (tour_cost d (A ++ B ++ C))).
    - destruct (Z.ltb_spec (tour_cost d (A ++ rev B ++ C)) (tour_cost d b)); do 2 eexists; (split; [reflexivity|]); repeat split; try assumption. lia.
    - rewrite Hr. do 2 eexists; (split; [reflexivity|]); repeat split; assumption.
  Qed.

  Lemma anneal_draws_ok draws : (forall k j r, In (k, j, r) draws -> 0 <= j <= k /\ Qeq_bool r 0 = false) ->
    forall sol b c, tour n sol -> tour n b -> tour_cost d b <= c ->
    exists sol' b', foldM (anneal_step D n) draws (sol, Some (tour_cost d b), b) = Ret (sol', Some (tour_cost d b'), b') /\ tour n b' /\ tour_cost d b' <= c.
  Proof using HD Hn.
    induction draws as [|((k, j), r) ds IHd]; intros H sol b0 c Ts T0 C0; [exists sol, b0; split; [reflexivity|split; assumption]|]. cbn [foldM].
    destruct (H k j r (or_introl eq_refl)) as (Hj & Hr).
    destruct (anneal_step_ok (sol, Some (tour_cost d b0), b0) c k j r Ts T0 eq_refl C0 Hj Hr) as (sol' & b' & -> & T1 & T2 & C2). cbn [bind]. apply IHd; [intros; apply H; right; assumption|assumption..].
  Qed.

  Lemma annealing_ok shuffled rounds : tour n shuffled -> (forall i k j r, In (k, j, r) (rounds i) -> 0 <= j <= k /\ Qeq_bool r 0 = false) ->
    exists fuel0, forall fuel, (fuel0 <= fuel)%nat ->
    exists p, annealing D fuel n shuffled rounds = Ret (Some (tour_cost d p), p) /\ tour n p /\ tour_cost d p <= tour_cost d shuffled.
  Proof using HD Hn.
    intros T H. destruct (depth_first_ok n d D HD ltac:(lia)) as (q & _ & Tq & _ & Low). set (low := tour_cost d q) in *.
    set (M := fun s : Z * option Z * list Z * option Z * Z => let '(_, v, b, old, count) := s in
      1001 * (2 * (tour_cost d b - low) + (if unchanged v old then 0 else 1)) + (1000 - count)).
    set (s0 := (0, Some (tour_cost d shuffled), shuffled, None, 0) : Z * option Z * list Z * option Z * Z).
    exists (bits (M s0)). intros fuel Hf. unfold annealing. rewrite (cost_tour n d D HD _ ltac:(lia) T). cbn [bind]. fold s0.
    apply (run_rule (anneal_round D n rounds) (fun s => let '(_, v, b, old, count) := s in tour n b /\ v = Some (tour_cost d b) /\ tour_cost d b <= tour_cost d shuffled /\ 0 <= count < 1000) M
      (fun r => exists p, r = Ret (Some (tour_cost d p), p) /\ tour n p /\ tour_cost d p <= tour_cost d shuffled)).
    - intros ((((i, v), b), old), count) (Tb & -> & Cb & Hc). unfold anneal_round.
      destruct (unchanged (Some (tour_cost d b)) old) eqn:U; cbn [andb].
      + destruct (Z.eqb_spec (count + 1) 1000); [exists b; repeat split; assumption|].
        destruct (anneal_draws_ok (rounds i) (H i) b b (tour_cost d b) Tb Tb ltac:(lia)) as (sol' & b' & -> & T' & C').
        assert (L := Low b' T'). fold low in L. split; [repeat split; [assumption|lia..]|]. unfold M. rewrite U.
        destruct (Z.eq_dec (tour_cost d b') (tour_cost d b)) as [E|E]; [rewrite E, U; cbv beta iota; lia|]. assert (tour_cost d b' < tour_cost d b) by lia. clear - L H0 Hc. destruct (unchanged (Some (tour_cost d b')) old); lia.
      + destruct (anneal_draws_ok (rounds i) (H i) b b (tour_cost d b) Tb Tb ltac:(lia)) as (sol' & b' & -> & T' & C').
        assert (L := Low b' T'). fold low in L. split; [repeat split; [assumption|lia..]|]. unfold M. rewrite U. cbn [unchanged].
        destruct (Z.eqb_spec (tour_cost d b') (tour_cost d b)); lia.
    - cbn. repeat split; try lia. exact T.
    - eapply Z.lt_le_trans; [apply bits_spec|]. apply Z.pow_le_mono_r; lia.
  Qed.

  (** A draw of 0.0 where the exchange does not help makes math.log raise. *)
  Lemma annealing_zero fuel shuffled rounds k j rest : tour n shuffled -> rounds 0 = (k, j, 0%Q) :: rest -> 0 <= j <= k ->
    tour_cost d shuffled <= tour_cost d (reverse_range shuffled j k) -> annealing D fuel n shuffled rounds = Raise ValueError.
  Proof using HD Hn.
    intros T R Hjk Hc. unfold annealing. rewrite (cost_tour n d D HD _ ltac:(lia) T). cbn [bind]. apply run_first. unfold anneal_round. cbn [unchanged andb]. rewrite R. cbn [foldM].
    unfold anneal_step. destruct (Z.ltb_spec n 3); [lia|].
    assert (T' : tour n (reverse_range shuffled j k)) by (unfold reverse_range; destruct (reverse_slice_split shuffled (j - 1) k ltac:(lia) ltac:(lia)) as (A & B & C & -> & ->); apply exchange_tour; exact T).
    rewrite (cost_tour n d D HD _ ltac:(lia) T'). cbn [bind]. rewrite (cost_tour n d D HD _ ltac:(lia) T). cbn [bind]. cbn [wltb]. destruct (Z.ltb_spec (tour_cost d (reverse_range shuffled j k)) (tour_cost d shuffled)); [lia|]. reflexivity.
  Qed.
End SA.

Lemma random_exchange_ok path a b : 0 <= a -> 0 <= b -> exists A B C, path = A ++ B ++ C /\ random_exchange path a b = A ++ rev B ++ C.
Proof. intros Ha Hb. unfold random_exchange. destruct (Z.ltb_spec b a); apply reverse_slice_split; lia. Qed.

Lemma accepts_small n a b : n <= 3 -> 0 <= a < n -> 0 <= b < n -> accepts n a b = false.
Proof.
  intros Hn Ha Hb. unfold accepts. cbn [existsb].
  destruct (Z.eqb_spec (a - b) (-1)); [reflexivity|]. destruct (Z.eqb_spec (a - b) 0); [reflexivity|]. destruct (Z.eqb_spec (a - b) 1); [reflexivity|]. cbn [orb negb andb].
  destruct (pair_eqb_spec (a, b) (0, n - 1)) as [E|E]; [reflexivity|]. destruct (pair_eqb_spec (a, b) (n - 1, 0)) as [E'|E']; [reflexivity|]. exfalso. assert (a = 0 /\ b = n - 1 \/ a = n - 1 /\ b = 0) as [(-> & ->)|(-> & ->)] by lia; congruence.
Qed.

Lemma accepts_large n a : 4 <= n -> 0 <= a < n -> exists b, 0 <= b < n /\ accepts n a b = true.
Proof.
  intros Hn Ha. assert (H : exists b, 0 <= b < n /\ ~ (-1 <= a - b <= 1) /\ ~ (a = 0 /\ b = n - 1) /\ ~ (a = n - 1 /\ b = 0)).
  { destruct (Z.eq_dec a 0); [exists 2; lia|]. destruct (Z.eq_dec a 1); [exists 3; lia|]. destruct (Z.eq_dec a (n - 1)); [exists 1; lia|]. exists 0. lia. }
  destruct H as (b & Hb & H1 & H2 & H3). exists b. split; [exact Hb|]. unfold accepts. cbn [existsb].
  destruct (Z.eqb_spec (a - b) (-1)); [lia|]. destruct (Z.eqb_spec (a - b) 0); [lia|]. destruct (Z.eqb_spec (a - b) 1); [lia|]. cbn [orb negb andb].
  destruct (pair_eqb_spec (a, b) (0, n - 1)) as [[= E1 E2]|E]; [lia|]. destruct (pair_eqb_spec (a, b) (n - 1, 0)) as [[= E1 E2]|E']; [lia|]. reflexivity.
Qed.
