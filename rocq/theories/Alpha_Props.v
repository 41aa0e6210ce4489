(** * C87: alphametics *)
From Coq Require Import ZArith List Bool Lia Permutation Sorting.Sorted.
From Verif Require Import Base Py Dict Lists2 Trav_Model Trav_Proofs Kor_Model Kor_Proofs Graph_Model Graph_Proofs2 Alpha_Spec Alpha_Model Alpha_Proofs Alpha_Proofs2.
Import ListNotations.
Open Scope Z_scope.

Lemma asg_map cl ds : NoDup cl -> length ds = length cl -> map (asg [] cl ds) cl = ds.
Proof.
  revert ds. induction cl as [|c cl IH]; intros [|d ds] N E; try discriminate; [reflexivity|]. inversion N as [|? ? Nc N']; subst.
  cbn [map]. unfold asg at 1. cbn [combine dget]. rewrite Z.eqb_refl. f_equal.
  rewrite <- (IH ds N') at 2 by (cbn [length] in E; lia). apply map_ext_in. intros x I. unfold asg. cbn [combine dget].
  destruct (Z.eqb_spec c x) as [->|]; [contradiction|reflexivity].
Qed.

Lemma combine_map cl (s : Z -> Z) : combine cl (map s cl) = map (fun c => (c, s c)) cl.
Proof. induction cl as [|c cl IH]; [reflexivity|]. cbn [map combine]. rewrite IH. reflexivity. Qed.

Lemma asg_self cl s c : In c cl -> asg [] cl (map s cl) c = s c.
Proof.
  intros I. unfold asg. rewrite combine_map. replace (dget (map (fun x => (x, s x)) cl) c) with (Some (s c)); [reflexivity|].
  symmetry. induction cl as [|x cl IH]; [destruct I|]. cbn [map dget]. destruct (Z.eqb_spec x c) as [->|]; [reflexivity|]. destruct I as [K|I]; [congruence|auto].
Qed.

Lemma wt_self sf cl s : wt sf cl (map s cl) = zsum (map (fun c => s c * sf c) cl).
Proof. unfold wt. rewrite combine_map, map_map. reflexivity. Qed.

Lemma NoDup_map_on {A B} (f : A -> B) l : NoDup l -> (forall x y, In x l -> In y l -> f x = f y -> x = y) -> NoDup (map f l).
Proof.
  induction 1 as [|x l Nx N IH]; intros H; cbn [map]; [constructor|]. constructor; [|apply IH; intros; apply H; try right; assumption].
  intros I. apply in_map_iff in I. destruct I as (y & E & Iy). apply H in E; [subst y; contradiction|right; exact Iy|left; reflexivity].
Qed.

(** ** C87: the generator yields the values of all solutions, each once, and nothing else; whatever the iteration orders of the sets. *)
Theorem C87_solve : forall cord dord lhs rhs,
  (forall l, Permutation (cord l) l) -> (forall l, Permutation (dord l) l) -> (forall w, In w (lhs ++ rhs) -> w <> []) ->
  exists sols, solve cord dord lhs rhs = Ret sols /\ NoDup sols /\
    forall a b, In (a, b) sols <-> exists s, solution lhs rhs s /\ a = map (value s) lhs /\ b = map (value s) rhs.
Proof.
  intros cord dord lhs rhs Hc Hd Hw. unfold solve. destruct (collect_ok _ Hw) as (cs & fs & -> & Ncs & Ics & Ifs). cbn [bind].
  assert (N1 : NoDup (cord cs)) by (apply (Permutation_NoDup (Permutation_sym (Hc cs))), Ncs).
  destruct (signatures_ok lhs rhs (cord cs)) as (sg & -> & Nsg & Isg).
  { intros w I. split; [apply Hw, I|]. intros c Ic. apply (Permutation_in _ (Permutation_sym (Hc cs))), Ics. exists w. auto. } { exact N1. }
  cbn [bind]. destruct (valuations_ok sg Nsg) as (vl & -> & Hvl). cbn [bind].
  set (vf := fun c => match dget vl c with Some v => v | None => 0 end). set (sf := fun c => total (ind c) lhs - total (ind c) rhs).
  set (cl := sort_by vf (cord cs)).
  assert (Pcl : Permutation cl (cord cs)) by apply sort_by_perm.
  assert (Ncl : NoDup cl) by (apply (Permutation_NoDup (Permutation_sym Pcl)), N1).
  assert (Icl : forall c, In c cl <-> letter lhs rhs c).
  { intros c. unfold letter. rewrite <- Ics. split; intros I; [apply (Permutation_in _ (Hc cs)), (Permutation_in _ Pcl), I|apply (Permutation_in _ (Permutation_sym Pcl)), (Permutation_in _ (Permutation_sym (Hc cs))), I]. }
  destruct (backtrack_ok dord Hd lhs rhs Hw fs sg vl sf vf cl 0 (zrange 0 10) []) as (E & mp & R & NE & HE & _).
  - exact Ncl.
  - apply zrange_NoDup.
  - apply NoDup_nil.
  - intros c I. assert (J : In (c, sf c) sg) by (apply Isg; split; [apply (Permutation_in _ Pcl), I|reflexivity]).
    destruct (Hvl c (sf c) J) as (k & K & V & D). unfold good, vf. rewrite V. split; [apply dget_In; [exact Nsg|exact J]|]. split; [reflexivity|]. split; [exact D|]. exists k. auto.
  - apply sort_by_sorted.
  - reflexivity.
  - intros w c I Ic. left. apply Icl. exists w. auto.
  - rewrite R. cbn [bind]. eexists. split; [reflexivity|].
    assert (TL : forall s, total s lhs - total s rhs = wt sf cl (map s cl)).
    { intros s. rewrite wt_self. rewrite (total_linear s cl lhs Ncl), (total_linear s cl rhs Ncl).
      - unfold sf. clear. induction cl as [|c l IH]; [reflexivity|]. cbn [map]. rewrite !zsum_cons, <- IH. lia.
      - intros w I c Ic. apply Icl. exists w. split; [apply in_app_iff; right; exact I|exact Ic].
      - intros w I c Ic. apply Icl. exists w. split; [apply in_app_iff; left; exact I|exact Ic]. }
    assert (DG : forall ds c, In ds E -> In c cl -> 0 <= asg [] cl ds c <= 9).
    { intros ds c I Ic. apply HE in I. destruct I as (L & _ & B & _). assert (In (asg [] cl ds c) ds) as J by (rewrite <- (asg_map cl ds Ncl L) at 2; apply in_map, Ic).
      apply B, zrange_In in J. lia. }
    split.
    + apply NoDup_map_on; [exact NE|]. intros ds ds' I I' K. unfold leaf in K. injection K as K1 K2. pose proof (proj1 (HE ds) I) as (L & _). pose proof (proj1 (HE ds') I') as (L' & _).
      rewrite <- (asg_map cl ds Ncl L), <- (asg_map cl ds' Ncl L'). apply map_ext_in. intros c Ic. apply Icl in Ic. destruct Ic as (w & Iw & Ic).
      assert (V : value (asg [] cl ds) w = value (asg [] cl ds') w).
      { apply in_app_iff in Iw. destruct Iw as [Iw|Iw]; [exact (ext_in_map K1 w Iw)|exact (ext_in_map K2 w Iw)]. }
      apply (value_inj _ _ w); [|exact V|exact Ic]. intros x Ix. assert (In x cl) by (apply Icl; exists w; auto). split; apply DG; assumption.
    + intros a b. rewrite in_map_iff. split.
      * intros (ds & K & I). exists (asg [] cl ds). unfold leaf in K. injection K as <- <-. split; [|auto]. pose proof (proj1 (HE ds) I) as (L & Nds & B & F & T).
        split; [intros c Ic; apply DG; [exact I|apply Icl, Ic]|]. split; [|split].
        -- intros c c' Ic Ic' Q. apply Icl in Ic, Ic'. rewrite <- (asg_map cl ds Ncl L) in Nds. revert Ic Ic' Q Nds. generalize (asg [] cl ds) as f. clear.
           intros f. induction cl as [|x l IH]; intros I I' Q N; [destruct I|]. cbn [map] in N. inversion N as [|? ? Nx N']; subst.
           destruct I as [->|I], I' as [->|I']; [reflexivity| | |auto].
           ++ exfalso. apply Nx. rewrite Q. apply in_map, I'.
           ++ exfalso. apply Nx. rewrite <- Q. apply in_map, I.
        -- intros c w Iw. assert (Ic : In c cl) by (apply Icl; exists (c :: w); split; [exact Iw|left; reflexivity]). apply (F c); [|apply Ifs; exists w; exact Iw].
           rewrite <- (asg_map cl ds Ncl L) at 2. rewrite combine_map. apply in_map_iff. exists c. auto.
        -- pose proof (TL (asg [] cl ds)) as TLd. rewrite (asg_map cl ds Ncl L) in TLd. unfold total in TLd. lia.
      * intros (s & (S1 & S2 & S3 & S4) & -> & ->). exists (map s cl). split.
        -- unfold leaf. assert (Q : forall w, In w (lhs ++ rhs) -> value (asg [] cl (map s cl)) w = value s w).
           { intros w Iw. apply value_ext. intros c Ic. apply asg_self, Icl. exists w. auto. }
           f_equal; apply map_ext_in; intros w Iw; apply Q, in_app_iff; tauto.
        -- apply HE. unfold ext. rewrite map_length. split; [reflexivity|]. split; [apply NoDup_map_on; [exact Ncl|]; intros x y Ix Iy; apply S2; apply Icl; assumption|].
           split; [intros d I; apply in_map_iff in I; destruct I as (c & <- & Ic); apply Icl, S1 in Ic; apply zrange_In; lia|]. split.
           ++ intros c d I If. rewrite combine_map in I. apply in_map_iff in I. destruct I as (x & K & _). injection K as <- <-. apply Ifs in If. destruct If as (w & Iw). exact (S3 x w Iw).
           ++ rewrite <- TL. unfold total. lia.
Qed.
Print Assumptions C87_solve.

(** C87: more than ten letters have no solution. *)
Theorem C87_many_letters : forall cord dord lhs rhs ls,
  (forall l, Permutation (cord l) l) -> (forall l, Permutation (dord l) l) -> (forall w, In w (lhs ++ rhs) -> w <> []) ->
  NoDup ls -> (forall c, In c ls -> letter lhs rhs c) -> (10 < length ls)%nat -> solve cord dord lhs rhs = Ret [].
Proof.
  intros cord dord lhs rhs ls Hc Hd Hw Nl Il L. destruct (C87_solve cord dord lhs rhs Hc Hd Hw) as (sols & -> & _ & H). f_equal. destruct sols as [|(a, b) sols]; [reflexivity|]. exfalso.
  destruct (proj1 (H a b) (or_introl eq_refl)) as (s & (S1 & S2 & _) & _). assert (N : NoDup (map s ls)) by (apply NoDup_map_on; [exact Nl|intros x y Ix Iy; apply S2; apply Il; assumption]).
  assert (B : incl (map s ls) (zrange 0 10)) by (intros d I; apply in_map_iff in I; destruct I as (c & <- & Ic); apply Il, S1 in Ic; apply zrange_In; lia).
  pose proof (NoDup_incl_length N B) as K. rewrite map_length, zrange_length in K. change (Z.to_nat (10 - 0)) with 10%nat in K. lia.
Qed.
Print Assumptions C87_many_letters.

(** C87: an empty word is rejected. *)
Theorem C87_empty_word : forall cord dord lhs rhs, In [] (lhs ++ rhs) -> solve cord dord lhs rhs = Raise IndexError.
Proof.
  intros cord dord lhs rhs I. unfold solve, collect. generalize (@nil Z, @nil Z) as st. induction (lhs ++ rhs) as [|w ws IH]; intros (cs, fs); [destruct I|].
  cbn [foldM]. destruct w as [|c w]; [reflexivity|]. destruct I as [K|I]; [discriminate|]. cbn [bind]. apply (IH I).
Qed.
Print Assumptions C87_empty_word.

(** SEND + MORE = MONEY (S = 1, E = 2, N = 3, D = 4, M = 5, O = 6, R = 7, Y = 8). *)
Example C87_example : (forall w, In w ([[1; 2; 3; 4]; [5; 6; 7; 2]] ++ [[5; 6; 3; 2; 8]]) -> w <> []) /\
  solve (fun l => l) (fun l => l) [[1; 2; 3; 4]; [5; 6; 7; 2]] [[5; 6; 3; 2; 8]] = Ret [([9567; 1085], [10652])] /\
  solve (@rev Z) (@rev Z) [[1; 2]; [1; 2]] [[2; 3]] = Ret [([49; 49], [98]); ([24; 24], [48]); ([37; 37], [74]); ([12; 12], [24]); ([25; 25], [50])].
Proof. split; [intros w [<-|[<-|[<-|[]]]]; discriminate|]. split; vm_compute; reflexivity. Qed.
