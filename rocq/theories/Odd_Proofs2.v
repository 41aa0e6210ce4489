(** * The odd graphs for k up to 5 *)
From Coq Require Import Ascii String ZArith List Bool Lia Sorting.Permutation Sorting.Sorted.
From Verif Require Import Base Lists Lists2 Count Enum_Proofs Repr_Spec Repr_Proofs Odd_Spec Odd_Model Odd_Proofs.
Import ListNotations.
Open Scope Z_scope.

Lemma subsequence_map {A B} (f : A -> B) l u : subsequence u (map f l) <-> exists S, subsequence S l /\ u = map f S.
Proof.
  split.
  - revert u. induction l as [|x l IH]; intros u H; cbn [map] in H.
    + inversion H; subst. exists []. split; constructor.
    + inversion H; subst.
      * destruct (IH _ H2) as (S & HS & ->). exists (x :: S). split; [constructor; exact HS|reflexivity].
      * destruct (IH _ H2) as (S & HS & ->). exists S. split; [apply sub_skip, HS|reflexivity].
  - intros (S & H & ->). induction H; cbn [map]; [constructor|constructor; assumption|apply sub_skip; assumption].
Qed.

Lemma subsequence_sorted l S : StronglySorted Z.lt l -> (subsequence S l <-> StronglySorted Z.lt S /\ forall x, In x S -> In x l).
Proof.
  intros Hl. split.
  - intros H. split; [|apply subsequence_in, H]. induction H as [|x u l H IH|x u l H IH]; [constructor| |]; inversion_clear Hl; [|auto].
    constructor; [auto|]. rewrite Forall_forall in *. intros y Hy. apply H1. eapply subsequence_in; eassumption.
  - intros (HS & Hin). revert S HS Hin. induction Hl as [|x l Hl IH F]; intros S HS Hin.
    + destruct S as [|y S]; [constructor|destruct (Hin y (or_introl eq_refl))].
    + rewrite Forall_forall in F. destruct S as [|y S]; [apply subsequence_nil|]. inversion_clear HS as [|? ? HS' FS]. rewrite Forall_forall in FS.
      destruct (Hin y (or_introl eq_refl)) as [<-|Hy].
      * apply sub_take, IH; [exact HS'|]. intros z Hz. destruct (Hin z (or_intror Hz)) as [<-|X]; [|exact X]. apply FS in Hz. lia.
      * apply sub_skip, IH; [constructor; [exact HS'|apply Forall_forall, FS]|]. intros z [<-|Hz]; [exact Hy|].
        destruct (Hin z (or_intror Hz)) as [<-|X]; [|exact X]. apply FS in Hz. apply F in Hy. lia.
Qed.

Lemma subsequence_filter {A} (p : A -> bool) l v : subsequence v (filter p l) <-> subsequence v l /\ forall x, In x v -> p x = true.
Proof.
  split.
  - revert v. induction l as [|x l IH]; intros v H; cbn [filter] in H; [inversion H; subst; split; [constructor|intros y []]|].
    destruct (p x) eqn:E; [inversion H; subst; [|destruct (IH _ H2); split; [apply sub_skip; assumption|assumption]]|destruct (IH _ H); split; [apply sub_skip; assumption|assumption]].
    destruct (IH _ H2) as (A1 & A2). split; [apply sub_take, A1|]. intros y [<-|Hy]; [exact E|apply A2, Hy].
  - intros (H & P). induction H as [|x u l H IH|x u l H IH]; cbn [filter]; [constructor| |].
    + rewrite (P x (or_introl eq_refl)). apply sub_take, IH. intros y Hy. apply P. right. exact Hy.
    + destruct (p x); [apply sub_skip|]; apply IH, P.
Qed.

Lemma filter_out_length (u l : text) : NoDup l -> NoDup u -> (forall c, In c u -> In c l) ->
  (length (filter (fun c => negb (existsb (Ascii.eqb c) u)) l) + length u = length l)%nat.
Proof.
  intros Nl Nu Hu. set (p := fun c => existsb (Ascii.eqb c) u).
  assert (P : Permutation (filter p l) u).
  { apply NoDup_Permutation; [apply NoDup_filter, Nl|exact Nu|]. intros c. rewrite filter_In. unfold p. split.
    - intros (_ & E). apply existsb_exists in E as (d & Hd & E). apply Ascii.eqb_eq in E. subst. exact Hd.
    - intros H. split; [apply Hu, H|]. apply existsb_exists. exists c. split; [exact H|apply Ascii.eqb_eq; reflexivity]. }
  rewrite <- (Permutation_length P). clear P Nl Nu Hu. fold p. induction l as [|c l IH]; [reflexivity|]. cbn [filter]. fold (p c). destruct (p c); cbn [negb length] in *; unfold p in *; lia.
Qed.

(** Digits. *)
Definition dig (i : Z) : ascii := hd " "%char (str i).
Lemma str_dig i : 0 <= i < 10 -> str i = [dig i].
Proof. intros H. assert (X : In i (zrange 0 10)) by (apply zrange_In; lia). cbn in X. repeat destruct X as [<-|X]; try reflexivity. destruct X. Qed.
Lemma dig_inj i j : 0 <= i < 10 -> 0 <= j < 10 -> dig i = dig j -> i = j.
Proof. intros Hi Hj E. apply str_inj. rewrite !str_dig by lia. congruence. Qed.

Lemma set_text_dig S : Forall (fun i => 0 <= i < 10) S -> set_text S = map dig S.
Proof. induction 1 as [|i S Hi F IH]; [reflexivity|]. unfold set_text in *. cbn [map List.concat]. rewrite IH, str_dig by exact Hi. reflexivity. Qed.

Lemma odd_ints_dig k : k <= 5 -> odd_ints k = map dig (zrange 0 (2 * k - 1)).
Proof. intros H. apply set_text_dig. apply Forall_forall. intros i Hi. apply zrange_In in Hi. lia. Qed.

Lemma map_dig_NoDup S : NoDup S -> Forall (fun i => 0 <= i < 10) S -> NoDup (map dig S).
Proof.
  induction 1 as [|i S Hi N IH]; intros F; [constructor|]. inversion_clear F. cbn [map]. constructor; [|apply IH; assumption].
  intros X. apply in_map_iff in X as (j & E & Hj). rewrite Forall_forall in H0. apply Hi. rewrite <- (dig_inj j i); [exact Hj|apply H0, Hj|exact H|exact E].
Qed.

Lemma odd_ints_NoDup k : k <= 5 -> NoDup (odd_ints k).
Proof. intros H. rewrite odd_ints_dig by exact H. apply map_dig_NoDup; [apply zrange_NoDup|]. apply Forall_forall. intros i Hi. apply zrange_In in Hi. lia. Qed.

Lemma map_dig_disjoint S T : Forall (fun i => 0 <= i < 10) S -> Forall (fun i => 0 <= i < 10) T -> (disjoint (map dig S) (map dig T) <-> forall i, In i S -> In i T -> False).
Proof.
  intros FS FT. rewrite Forall_forall in *. unfold disjoint. split.
  - intros H i Hi Hj. apply (H (dig i)); apply in_map; assumption.
  - intros H c Hc Hd. apply in_map_iff in Hc as (i & <- & Hi). apply in_map_iff in Hd as (j & E & Hj).
    apply (H i Hi). rewrite <- (dig_inj j i); [exact Hj|apply FT, Hj|apply FS, Hi|exact E].
Qed.

Lemma map_dig_inj S : forall T, Forall (fun i => 0 <= i < 10) S -> Forall (fun i => 0 <= i < 10) T -> map dig S = map dig T -> S = T.
Proof.
  induction S as [|i S IH]; intros [|j T] FS FT E; try discriminate; [reflexivity|]. inversion_clear FS. inversion_clear FT. cbn [map] in E. injection E as E1 E2.
  f_equal; [apply dig_inj; assumption|apply IH; assumption].
Qed.


Lemma odd_set_bound k S : k <= 5 -> odd_set k S -> Forall (fun i => 0 <= i < 10) S.
Proof. intros Hk (_ & _ & H). apply Forall_forall. intros i Hi. apply H in Hi. lia. Qed.

Lemma odd_vertex_set k u : k <= 5 -> (subsequence u (odd_ints k) /\ Z.of_nat (length u) = k - 1 <-> exists S, odd_set k S /\ u = set_text S).
Proof.
  intros Hk. rewrite odd_ints_dig by exact Hk. rewrite subsequence_map. split.
  - intros ((S & H & ->) & E). rewrite map_length in E. apply subsequence_sorted in H as (H1 & H2); [|apply zrange_sorted].
    assert (O : odd_set k S) by (split; [exact H1|]; split; [exact E|]; intros i Hi; apply H2, zrange_In in Hi; lia).
    exists S. split; [exact O|]. symmetry. apply set_text_dig, (odd_set_bound k S Hk O).
  - intros (S & O & ->). rewrite (set_text_dig S) by (apply (odd_set_bound k S Hk O)). destruct O as (H1 & H2 & H3). split; [|rewrite map_length; exact H2].
    exists S. split; [|reflexivity]. apply subsequence_sorted; [apply zrange_sorted|]. split; [exact H1|]. intros i Hi. apply zrange_In. apply H3 in Hi. lia.
Qed.

Lemma odd_count k : 1 <= k <= 5 -> number_of (fun u => subsequence u (odd_ints k) /\ Z.of_nat (length u) = k - 1) (choose (Z.to_nat (2 * k - 1)) (Z.to_nat (k - 1))).
Proof.
  intros Hk. exists (selections (Z.to_nat (k - 1)) (odd_ints k)). split; [apply selections_nodup, odd_ints_NoDup; lia|]. split.
  - intros u. rewrite selections_in. intuition lia.
  - rewrite selections_length. f_equal. rewrite odd_ints_dig, map_length, zrange_length by lia. lia.
Qed.

Lemma choose_pred n : choose (S n) n = Z.of_nat (S n).
Proof.
  assert (X : forall m, choose m m = 1) by (induction m as [|m IH]; [reflexivity|cbn [choose]; rewrite IH, choose_out by lia; reflexivity]).
  induction n as [|n IH]; [reflexivity|].
  assert (E : choose (S (S n)) (S n) = choose (S n) n + choose (S n) (S n)) by reflexivity. rewrite E, IH, X. lia.
Qed.

Lemma odd_degree k u : 2 <= k <= 5 -> subsequence u (odd_ints k) -> Z.of_nat (length u) = k - 1 ->
  number_of (fun v => (subsequence v (odd_ints k) /\ Z.of_nat (length v) = k - 1) /\ u <> v /\ disjoint u v) k.
Proof.
  intros Hk Hu El. set (R := filter (fun c => negb (existsb (Ascii.eqb c) u)) (odd_ints k)).
  assert (N : NoDup (odd_ints k)) by (apply odd_ints_NoDup; lia).
  assert (LR : length R = Z.to_nat k).
  { pose proof (filter_out_length u (odd_ints k) N (subsequence_nodup _ _ Hu N) (subsequence_in _ _ Hu)) as E. fold R in E.
    rewrite odd_ints_dig, map_length, zrange_length in E by lia. lia. }
  exists (selections (Z.to_nat (k - 1)) R). split; [apply selections_nodup, NoDup_filter, N|]. split.
  - intros v. rewrite selections_in. unfold R. rewrite subsequence_filter. split.
    + intros ((Hv & P) & E). assert (D : disjoint u v).
      { intros c Hc Hd. apply P in Hd. apply negb_true_iff in Hd. assert (X : existsb (Ascii.eqb c) u = true) by (apply existsb_exists; exists c; split; [exact Hc|apply Ascii.eqb_eq; reflexivity]). congruence. }
      repeat split; [exact Hv|lia| |exact D]. intros <-. destruct u as [|c u]; [cbn in El; lia|]. apply (D c); left; reflexivity.
    + intros ((Hv & E) & _ & D). split; [|lia]. split; [exact Hv|]. intros c Hc. apply negb_true_iff. destruct (existsb (Ascii.eqb c) u) eqn:X; [|reflexivity].
      apply existsb_exists in X as (d & Hd & X). apply Ascii.eqb_eq in X. subst. destruct (D d Hd Hc).
  - rewrite selections_length, LR. replace (Z.to_nat k) with (S (Z.to_nat (k - 1))) by lia. rewrite choose_pred. lia.
Qed.
