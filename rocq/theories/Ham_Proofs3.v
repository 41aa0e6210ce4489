(** * Hamiltonian paths counted by inclusion and exclusion *)
From Coq Require Import ZArith List Lia Bool Permutation.
From Verif Require Import Base Py Dict Lists Lists2 Count Graph_Model Graph_Spec Graph_Proofs Graph_Proofs2 Trav_Model Trav_Proofs Cliq_Model Cliq_Spec Cliq_Proofs Ham_Model Ham_Spec Ham_Proofs.
Import ListNotations.
Open Scope Z_scope.

Lemma zsum_app a b : zsum (a ++ b) = zsum a + zsum b.
Proof. unfold zsum. induction a as [|x a IH]; cbn [fold_right app]; lia. Qed.
Lemma zsum_mul {A} c (f : A -> Z) l : zsum (map (fun x => c * f x) l) = c * zsum (map f l).
Proof. unfold zsum. induction l as [|x l IH]; cbn [map fold_right]; lia. Qed.
Lemma zsum_plus {A} (f h : A -> Z) l : zsum (map (fun x => f x + h x) l) = zsum (map f l) + zsum (map h l).
Proof. unfold zsum. induction l as [|x l IH]; cbn [map fold_right]; lia. Qed.
Lemma zsum_ext {A} (f h : A -> Z) l : (forall x, In x l -> f x = h x) -> zsum (map f l) = zsum (map h l).
Proof. intros H. f_equal. apply map_ext_in. exact H. Qed.
Lemma zsum_zero {A} (l : list A) : zsum (map (fun _ => 0) l) = 0.
Proof. induction l as [|x l IH]; [reflexivity|]. cbn [map]. change (zsum (?a :: ?b)) with (a + zsum b). lia. Qed.
Lemma zsum_swap {A B} (f : A -> B -> Z) (l : list A) (m : list B) : zsum (map (fun x => zsum (map (f x) m)) l) = zsum (map (fun y => zsum (map (fun x => f x y) l)) m).
Proof.
  induction l as [|x l IH]; cbn [map].
  - symmetry. apply (zsum_zero m).
  - change (zsum (?a :: ?b)) with (a + zsum b). rewrite IH, <- zsum_plus. apply zsum_ext. intros y _. reflexivity.
Qed.
Lemma zsum_filter {A} (p : A -> bool) l : zsum (map (fun x => if p x then 1 else 0) l) = Z.of_nat (length (filter p l)).
Proof. induction l as [|x l IH]; [reflexivity|]. cbn [map filter]. change (zsum (?a :: ?b)) with (a + zsum b). rewrite IH. destruct (p x); cbn [length]; lia. Qed.
Lemma zsum_map_map {A B} (f : A -> B) (h : B -> Z) l : zsum (map h (map f l)) = zsum (map (fun x => h (f x)) l).
Proof. rewrite map_map. reflexivity. Qed.

(** ** The subsets by size, and all of them *)
Fixpoint sublists (l : list Z) : list (list Z) :=
  match l with [] => [[]] | x :: l' => map (cons x) (sublists l') ++ sublists l' end.

Lemma combinations_big s l : (length l < s)%nat -> combinations_of s l = [].
Proof.
  revert s. induction l as [|x l IH]; intros [|s] H; cbn [length combinations_of] in *; try lia; [reflexivity|]. rewrite (IH s), (IH (S s)) by lia. reflexivity.
Qed.

Lemma combinations_0 l : combinations_of 0 l = [[]]. Proof. destruct l; reflexivity. Qed.

Lemma sum_by_size l : forall (F : list Z -> Z) m, (length l <= m)%nat -> zsum (map (fun s => zsum (map F (combinations_of s l))) (seq 0 (S m))) = zsum (map F (sublists l)).
Proof.
  induction l as [|x l IH]; intros F m L.
  - cbn [sublists seq map combinations_of]. change (zsum (?a :: ?b)) with (a + zsum b). rewrite (zsum_ext _ (fun _ => 0)); [rewrite zsum_zero; cbn; lia|].
    intros s Hs. apply in_seq in Hs. destruct s as [|s]; [lia|]. reflexivity.
  - cbn [length] in L. destruct m as [|m]; [lia|]. cbn [sublists]. rewrite map_app, zsum_app, zsum_map_map.
    rewrite <- (IH (fun A => F (x :: A)) m) by lia. rewrite <- (IH F (S m)) by lia.
    replace (seq 0 (S (S m))) with (0%nat :: map S (seq 0 (S m))) by (rewrite seq_shift; reflexivity).
    set (q := seq 0 (S m)). cbn [map]. rewrite !map_map. change (zsum (?a :: ?b)) with (a + zsum b). rewrite !combinations_0.
    rewrite (zsum_ext (fun s => zsum (map F (combinations_of (S s) (x :: l)))) (fun s => zsum (map (fun A => F (x :: A)) (combinations_of s l)) + zsum (map F (combinations_of (S s) l)))).
    + rewrite zsum_plus. lia.
    + intros s _. cbn [combinations_of]. rewrite map_app, zsum_app, zsum_map_map. reflexivity.
Qed.

Lemma sublists_length l A : In A (sublists l) -> (length A <= length l)%nat.
Proof.
  revert A. induction l as [|x l IH]; intros A H; cbn [sublists] in H; [destruct H as [<-|[]]; auto|]. apply in_app_iff in H as [H|H].
  - apply in_map_iff in H as (B & <- & H). apply IH in H. cbn [length]. lia.
  - apply IH in H. cbn [length]. lia.
Qed.
Lemma sublists_incl l A x : In A (sublists l) -> In x A -> In x l.
Proof.
  revert A. induction l as [|y l IH]; intros A H Hx; cbn [sublists] in H; [destruct H as [<-|[]]; exact Hx|]. apply in_app_iff in H as [H|H].
  - apply in_map_iff in H as (B & <- & H). destruct Hx as [<-|Hx]; [left; reflexivity|right; apply (IH B H Hx)].
  - right. apply (IH A H Hx).
Qed.
Lemma sublists_NoDup l A : NoDup l -> In A (sublists l) -> NoDup A.
Proof.
  intros N. revert A. induction N as [|y l Ny N IH]; intros A H; cbn [sublists] in H; [destruct H as [<-|[]]; constructor|]. apply in_app_iff in H as [H|H]; [|apply IH, H].
  apply in_map_iff in H as (B & <- & H). constructor; [|apply IH, H]. intros Hy. apply Ny, (sublists_incl l B y H Hy).
Qed.

Definition subset (p A : list Z) : bool := forallb (fun x => mem x A) p.
Lemma subset_iff p A : subset p A = true <-> forall x, In x p -> In x A.
Proof. unfold subset. rewrite forallb_forall. split; intros H x Hx; apply mem_In, H, Hx. Qed.
Lemma subset_eq p A B : (forall x, In x p -> (In x A <-> In x B)) -> subset p A = subset p B.
Proof.
  intros H. destruct (subset p A) eqn:E1, (subset p B) eqn:E2; try reflexivity.
  - rewrite (proj2 (subset_iff p B)) in E2; [discriminate|]. intros x Hx. apply H; [exact Hx|]. apply (proj1 (subset_iff p A) E1), Hx.
  - rewrite (proj2 (subset_iff p A)) in E1; [discriminate|]. intros x Hx. apply H; [exact Hx|]. apply (proj1 (subset_iff p B) E2), Hx.
Qed.

(** The alternating sum over the sets between p and V is 0 unless p covers V. *)
Lemma alternating V : NoDup V -> forall base p, (forall x, In x p -> In x V \/ In x base) -> (forall x, In x V -> ~ In x base) ->
  zsum (map (fun A => (-1) ^ (Z.of_nat (length V) - Z.of_nat (length A)) * if subset p (A ++ base) then 1 else 0) (sublists V)) = if subset V p then 1 else 0.
Proof.
  induction 1 as [|v V Nv N IH]; intros base p Hp Hb.
  - cbn [sublists map length subset forallb app]. rewrite (proj2 (subset_iff p base)); [reflexivity|]. intros x Hx. destruct (Hp x Hx) as [[]|H]; exact H.
  - cbn [sublists]. rewrite map_app, zsum_app, zsum_map_map.
    assert (E1 : zsum (map (fun A => (-1) ^ (Z.of_nat (length (v :: V)) - Z.of_nat (length (v :: A))) * (if subset p ((v :: A) ++ base) then 1 else 0)) (sublists V)) = if subset V p then 1 else 0).
    { rewrite <- (IH (v :: base) p).
      - apply zsum_ext. intros A _. cbn [length]. f_equal; [f_equal; lia|]. rewrite (subset_eq p ((v :: A) ++ base) (A ++ v :: base)); [reflexivity|]. intros x _. cbn [app In]. rewrite !in_app_iff. cbn [In]. tauto.
      - intros x Hx. destruct (Hp x Hx) as [[<-|H]|H]; cbn [In]; tauto.
      - intros x Hx [<-|H]; [contradiction|]. apply (Hb x (or_intror Hx) H). }
    rewrite E1. cbn [subset forallb]. fold (subset V p). destruct (mem v p) eqn:M.
    + apply mem_In in M. rewrite (zsum_ext _ (fun _ => 0)); [rewrite zsum_zero; cbn [andb]; lia|]. intros A HA.
      destruct (subset p (A ++ base)) eqn:S; [|lia]. exfalso. pose proof (proj1 (subset_iff p (A ++ base)) S v M) as M'. apply in_app_iff in M' as [M'|M']; [apply Nv, (sublists_incl V A v HA M')|apply (Hb v (or_introl eq_refl) M')].
    + apply mem_false in M. assert (E2 : zsum (map (fun A => (-1) ^ (Z.of_nat (length (v :: V)) - Z.of_nat (length A)) * (if subset p (A ++ base) then 1 else 0)) (sublists V)) = - (if subset V p then 1 else 0)).
      { replace (- (if subset V p then 1 else 0)) with (-1 * (if subset V p then 1 else 0)) by lia. rewrite <- (IH base p).
        - rewrite <- zsum_mul. apply zsum_ext. intros A HA. apply sublists_length in HA. cbn [length]. replace (Z.of_nat (S (length V)) - Z.of_nat (length A)) with (Z.succ (Z.of_nat (length V) - Z.of_nat (length A))) by lia. rewrite Z.pow_succ_r by lia. ring.
        - intros x Hx. destruct (Hp x Hx) as [[<-|H]|H]; tauto.
        - intros x Hx. apply Hb. right. exact Hx. }
      rewrite E2. cbn [andb]. lia.
Qed.

(** ** The walks *)
Section Walks.
  Context (g : graph).
  Hypothesis Hg : undirected g.

  (** Walks through vertices of A, with k edges, from u to a. *)
  Definition wk (A : list Z) (k : nat) (u a : Z) (p : list Z) : Prop :=
    length p = S k /\ (forall x, In x p -> In x A) /\ successive g p /\ hd_error p = Some u /\ last p 0 = a.

  Lemma wk_step A k u a p : In u A -> (wk A (S k) u a p <-> exists v, In v (inter (nbr g u) A) /\ exists q, p = u :: q /\ wk A k v a q).
  Proof using Hg.
    intros Hu. split.
    - intros (L & HA & Hs & Hh & Hl). destruct p as [|x [|v q]]; [discriminate|discriminate|]. cbn in Hh. injection Hh as ->. apply successive_cons in Hs as (E & Hs).
      exists v. split; [apply inter_In; split; [apply (nbr_In g), E|apply HA; right; left; reflexivity]|]. exists (v :: q). split; [reflexivity|]. split; [cbn [length] in *; lia|]. split; [intros y Hy; apply HA; right; exact Hy|]. split; [exact Hs|]. split; [reflexivity|exact Hl].
    - intros (v & Hv & q & -> & L & HA & Hs & Hh & Hl). apply inter_In in Hv as (Hv & _). apply (nbr_In g) in Hv. destruct q as [|x q]; [discriminate|]. cbn in Hh. injection Hh as ->.
      split; [cbn [length] in *; lia|]. split; [intros y [<-|Hy]; [exact Hu|apply HA, Hy]|]. split; [apply successive_cons; split; assumption|]. split; [reflexivity|exact Hl].
  Qed.

  Lemma dget_table (f : Z -> Z) (A : list Z) u : In u A -> dget (map (fun u => (u, f u)) A) u = Some (f u).
  Proof using.
    induction A as [|x A IH]; intros H; [destruct H|]. cbn [map dget]. destruct (Z.eqb_spec x u) as [->|N]; [reflexivity|]. destruct H as [H|H]; [congruence|apply IH, H].
  Qed.

  Definition counts A k a (d : list (Z * Z)) : Prop := forall u, In u A -> exists x, dget d u = Some x /\ number_of (wk A k u a) x.

  Lemma rounds_ok A a : NoDup A -> forall j k d, counts A k a d -> counts A (k + j) a (walk_rounds g A j d).
  Proof using Hg.
    intros NA. induction j as [|j IH]; intros k d H; [rewrite Nat.add_0_r; exact H|]. cbn [walk_rounds]. replace (k + S j)%nat with (S k + j)%nat by lia. apply IH.
    intros u Hu. eexists. split; [apply (dget_table (fun u => zsum (map (fun v => match dget d v with Some x => x | None => 0 end) (inter (nbr g u) A)))), Hu|].
    eapply number_of_ext; [intros p; symmetry; apply wk_step, Hu|]. apply number_of_sum.
    - apply inter_nodup, (nbr_NoDup g Hg).
    - intros v Hv. apply inter_In in Hv as (_ & Hv). destruct (H v Hv) as (x & E & Hx). rewrite E.
      apply (number_of_bij (wk A k v a) _ (cons u) (@tl Z)); [| |exact Hx].
      + intros q Hq. split; [exists q; split; [reflexivity|exact Hq]|reflexivity].
      + intros p (q & -> & Hq). split; [exact Hq|reflexivity].
    - intros v w p _ _ (q & -> & (_ & _ & _ & E1 & _)) (q' & E & (_ & _ & _ & E2 & _)). injection E as <-. congruence.
  Qed.

  Lemma walks_ok A a n : NoDup A -> In a A -> 1 <= n -> counts A (Z.to_nat n) a (walks g a n A).
  Proof using Hg.
    intros NA Ha Hn. unfold walks. replace (Z.to_nat n) with (1 + Z.to_nat (n - 1))%nat by lia. apply rounds_ok; [exact NA|].
    intros u Hu. eexists. split; [apply (dget_table (fun u => if mem u (inter (nbr g a) A) then 1 else 0)), Hu|].
    assert (K : forall p, wk A 1 u a p -> p = [u; a] /\ edge g u a).
    { intros p (L & _ & Hs & Hh & Hl). destruct p as [|x [|y [|z p]]]; try discriminate. cbn in Hh, Hl. injection Hh as ->. subst y. split; [reflexivity|]. apply (Hs [] u a []). reflexivity. }
    destruct (mem u (inter (nbr g a) A)) eqn:M.
    - apply mem_In, inter_In in M as (M & _). apply (nbr_In g), (esym g Hg) in M. apply (number_of_one _ [u; a]). intros p. split; [intros H; apply K, H|]. intros ->.
      split; [reflexivity|]. split; [intros x [<-|[<-|[]]]; assumption|]. split; [apply successive_cons; split; [exact M|apply successive_one]|]. split; reflexivity.
    - apply mem_false in M. apply number_of_none. intros p H. apply K in H as (_ & H). apply M, inter_In. split; [apply (nbr_In g), (esym g Hg), H|exact Hu].
  Qed.

  (** Walks with n vertices, all in A. *)
  Definition wlk (A : list Z) (n : nat) (p : list Z) : Prop := length p = n /\ (forall x, In x p -> In x A) /\ successive g p.

  Lemma walk_term_ok A n : NoDup A -> 2 <= n -> exists c, walk_term g n A = (-1) ^ (n - Z.of_nat (length A)) * c /\ number_of (wlk A (Z.to_nat n)) c.
  Proof using Hg.
    intros NA Hn. set (f := fun a u => match dget (walks g a (n - 1) A) u with Some x => x | None => 0 end).
    exists (zsum (map (fun a => zsum (map (f a) A)) A)). split.
    - unfold walk_term. rewrite <- zsum_mul. apply zsum_ext. intros a _. cbv zeta. rewrite <- zsum_mul. reflexivity.
    - apply number_of_ext with (P := fun p => exists a, In a A /\ exists u, In u A /\ wk A (Z.to_nat (n - 1)) u a p).
      + intros p. split.
        * intros (a & _ & u & _ & L & H1 & H2 & _). split; [lia|]. split; assumption.
        * intros (L & H1 & H2). assert (Ne : p <> []) by (intros ->; cbn in L; lia). exists (last p 0). split.
          -- apply H1. destruct (exists_last Ne) as (q & z & ->). rewrite last_last. apply in_or_app. right. left. reflexivity.
          -- destruct p as [|u q]; [congruence|]. exists u. split; [apply H1; left; reflexivity|]. split; [lia|]. split; [exact H1|]. split; [exact H2|]. split; reflexivity.
      + apply number_of_sum; [exact NA| |].
        * intros a Ha. apply number_of_sum; [exact NA| |].
          -- intros u Hu. destruct (walks_ok A a (n - 1) NA Ha ltac:(lia) u Hu) as (x & E & Hx). unfold f. rewrite E. exact Hx.
          -- intros u v p _ _ (_ & _ & _ & E1 & _) (_ & _ & _ & E2 & _). congruence.
        * intros a b p _ _ (u & _ & _ & _ & _ & _ & E1) (v & _ & _ & _ & _ & _ & E2). congruence.
  Qed.

  Lemma ham5_ok vs : Permutation vs (map fst g) -> (2 <= length vs)%nat -> number_of (hamiltonian_path g) (ham5 g vs).
  Proof using Hg.
    intros P L. assert (N : NoDup vs) by (apply (Permutation_NoDup (Permutation_sym P)), Hg). set (n := Z.of_nat (length vs)).
    unfold ham5. fold n. rewrite (sum_by_size vs (walk_term g n) (length vs)) by lia.
    destruct (walk_term_ok vs n N ltac:(unfold n; lia)) as (_ & _ & Lw & NL & HL & _).
    assert (T : forall A, In A (sublists vs) -> walk_term g n A = zsum (map (fun p => (-1) ^ (n - Z.of_nat (length A)) * if subset p (A ++ []) then 1 else 0) Lw)).
    { intros A HA. destruct (walk_term_ok A n (sublists_NoDup vs A N HA) ltac:(unfold n; lia)) as (c & -> & Hc). rewrite zsum_mul, zsum_filter. f_equal.
      apply (number_of_unique (wlk A (Z.to_nat n))); [exact Hc|]. exists (filter (fun p => subset p (A ++ [])) Lw). split; [apply NoDup_filter, NL|]. split; [|reflexivity].
      intros p. rewrite filter_In, HL, app_nil_r, subset_iff. unfold wlk. split; [tauto|]. intros (H1 & H2 & H3). split; [|exact H2]. split; [exact H1|]. split; [|exact H3].
      intros x Hx. apply (sublists_incl vs A x HA), H2, Hx. }
    rewrite (zsum_ext _ _ _ T). rewrite zsum_swap.
    rewrite (zsum_ext _ (fun p => if subset vs p then 1 else 0)).
    - rewrite zsum_filter. exists (filter (fun p => subset vs p) Lw). split; [apply NoDup_filter, NL|]. split; [|reflexivity].
      intros p. rewrite filter_In, HL, subset_iff. unfold wlk, hamiltonian_path. split.
      + intros ((H1 & H2 & H3) & H4). split; [|exact H3]. rewrite <- P. symmetry. apply NoDup_Permutation_bis; [exact N|unfold n in H1; lia|exact H4].
      + intros (H1 & H2). rewrite <- P in H1. split; [split; [rewrite (Permutation_length H1); unfold n; lia|split; [|exact H2]]|]; intros x; apply Permutation_in; [exact H1|symmetry; exact H1].
    - intros p Hp. apply (alternating vs N [] p); [|intros x _ []]. intros x Hx. left. apply HL in Hp. apply Hp, Hx.
  Qed.
End Walks.
