(** * The odd graphs: the properties *)
From Coq Require Import Ascii String ZArith List Bool Lia Sorting.Permutation Sorting.Sorted.
From Verif Require Import Base Lists Lists2 Count Enum_Proofs Repr_Spec Repr_Proofs Odd_Spec Odd_Model Odd_Proofs Odd_Proofs2.
Import ListNotations.
Open Scope Z_scope.

(** C98: for k = 1, ..., 5 the vertices of odd_graph(k) are the (k - 1)-subsets of {0, ..., 2k - 2}, each written once with its elements in
    increasing order, and two vertices are adjacent (with weight 1) if and only if they are different and disjoint. *)
Theorem C98_odd_graph k : 1 <= k <= 5 -> exists g, odd_graph k = Ret g /\ distinct_keys g /\
  (forall u, tvertex g u <-> exists S, odd_set k S /\ u = set_text S) /\
  (forall S T w, odd_set k S -> odd_set k T -> (set_text S = set_text T -> S = T) /\
     (tweight g (set_text S) (set_text T) w <-> w = 1 /\ S <> T /\ forall i, In i S -> In i T -> False)) /\
  (forall u v w, tweight g u v w -> tvertex g u /\ tvertex g v) /\
  number_of (tvertex g) (choose (Z.to_nat (2 * k - 1)) (Z.to_nat (k - 1))).
Proof.
  intros Hk. destruct (odd_graph_ok k ltac:(lia)) as (g & E & D & V & W). exists g. split; [exact E|]. split; [exact D|].
  assert (VS : forall u, tvertex g u <-> exists S, odd_set k S /\ u = set_text S) by (intros u; rewrite V; apply odd_vertex_set; lia).
  split; [exact VS|]. split; [|split].
  - intros S T w HS HT. pose proof (odd_set_bound k S ltac:(lia) HS) as FS. pose proof (odd_set_bound k T ltac:(lia) HT) as FT.
    assert (I : set_text S = set_text T -> S = T) by (rewrite !set_text_dig by assumption; apply map_dig_inj; assumption).
    split; [exact I|]. rewrite W, <- (map_dig_disjoint S T FS FT), !VS, <- !set_text_dig by assumption. split.
    + intros (-> & _ & _ & N & Hd). repeat split; [|exact Hd]. intros ->. apply N. reflexivity.
    + intros (-> & N & Hd). split; [reflexivity|]. split; [exists S; auto|]. split; [exists T; auto|]. split; [|exact Hd]. intros X. apply N, I, X.
  - intros u v w H. apply W in H. tauto.
  - eapply number_of_ext; [|apply odd_count, Hk]. intros u. rewrite V. reflexivity.
Qed.
Print Assumptions C98_odd_graph.

(** C98: it is regular of degree k (for k >= 2). *)
Theorem C98_degree k : 2 <= k <= 5 -> exists g, odd_graph k = Ret g /\ forall u, tvertex g u -> number_of (fun v => tweight g u v 1) k.
Proof.
  intros Hk. destruct (odd_graph_ok k ltac:(lia)) as (g & E & D & V & W). exists g. split; [exact E|]. intros u Hu.
  apply V in Hu as Hu'. destruct Hu' as (H1 & H2). eapply number_of_ext; [|apply (odd_degree k u Hk H1 H2)].
  intros v. rewrite W, <- V. tauto.
Qed.
Print Assumptions C98_degree.

(** C98: what it is for every k >= 1: the vertices are the texts of k - 1 characters obtained from "012...(2k-2)" by removing characters. *)
Theorem C98_all k : 1 <= k -> exists g, odd_graph k = Ret g /\ distinct_keys g /\
  (forall u, tvertex g u <-> subsequence u (set_text (zrange 0 (2 * k - 1))) /\ Z.of_nat (length u) = k - 1) /\
  (forall u v w, tweight g u v w <-> w = 1 /\ tvertex g u /\ tvertex g v /\ u <> v /\ disjoint u v).
Proof. exact (odd_graph_ok k). Qed.
Print Assumptions C98_all.

Theorem C98_error k : k <= 0 -> odd_graph k = Raise ValueError.
Proof. intros H. unfold odd_graph. destruct (Z.ltb_spec (k - 1) 0); [reflexivity|lia]. Qed.
Print Assumptions C98_error.

(** C98: the docstring (the k-subsets of {1, ..., 2k + 1}, of which there are choose (2k + 1) k) is false for each of these k: there are
    choose (2k - 1) (k - 1) vertices, for k = 2 only 3 and not 10. *)
Theorem C98_docstring_refuted k : 1 <= k <= 5 -> exists g, odd_graph k = Ret g /\ ~ number_of (tvertex g) (choose (Z.to_nat (2 * k + 1)) (Z.to_nat k)).
Proof.
  intros Hk. destruct (C98_odd_graph k Hk) as (g & E & _ & _ & _ & _ & N). exists g. split; [exact E|]. intros N'.
  pose proof (number_of_unique _ _ _ N N') as X. assert (k = 1 \/ k = 2 \/ k = 3 \/ k = 4 \/ k = 5) as [->|[->|[->|[->| ->]]]] by lia; vm_compute in X; discriminate X.
Qed.
Example docstring_example : exists g, odd_graph 2 = Ret g /\ number_of (tvertex g) 3 /\ choose 5 2 = 10.
Proof.
  destruct (C98_odd_graph 2 ltac:(lia)) as (g & E & _ & _ & _ & _ & N). exists g. split; [exact E|]. split; [exact N|reflexivity].
Qed.
Print Assumptions C98_docstring_refuted.

(** C98: the claim of C98_odd_graph is false for k = 6, where the number 10 is taken for two characters: "01230" is a vertex, and it is not
    the text of a set of five of the numbers 0, ..., 10. *)
Theorem C98_six_refuted : exists g, odd_graph 6 = Ret g /\ tvertex g (txt "01230") /\ forall S, odd_set 6 S -> txt "01230" <> set_text S.
Proof.
  destruct (odd_graph_ok 6 ltac:(lia)) as (g & E & _ & V & _). exists g. split; [exact E|]. split.
  - apply V. split; [|reflexivity]. vm_compute. repeat (apply sub_take || apply sub_skip); constructor.
  - clear g E V. intros S (HS & Hl & HB) X.
    assert (Hlen : length (set_text S) = 5%nat) by (rewrite <- X; reflexivity).
    assert (One : forall T, (forall i, In i T -> 0 <= i) -> (length T <= length (set_text T))%nat /\
               (length (set_text T) = length T -> forall i, In i T -> length (str i) = 1%nat)).
    { induction T as [|i T IH]; intros HT; [split; [reflexivity|intros _ i []]|]. unfold set_text in *. cbn [map List.concat].
      rewrite app_length. destruct (IH (fun j Hj => HT j (or_intror Hj))) as (A1 & A2).
      destruct (str_pos i (HT i (or_introl eq_refl))) as (_ & Hn). destruct (str i) as [|c s] eqn:Es; [congruence|]. cbn [length] in *.
      split; [lia|]. intros Q j [<-|Hj]; [rewrite Es; cbn; lia|]. apply A2; [lia|exact Hj]. }
    destruct (One S (fun i Hi => proj1 (HB i Hi))) as (_ & O). assert (HL : length S = 5%nat) by lia.
    assert (F : Forall (fun i => 0 <= i < 10) S).
    { apply Forall_forall. intros i Hi. specialize (HB i Hi). destruct (Z.eq_dec i 10) as [->|]; [|lia]. specialize (O ltac:(lia) 10 Hi). discriminate. }
    rewrite set_text_dig in X by exact F. destruct S as [|a [|b [|c [|d [|e [|]]]]]]; try discriminate. cbn [map] in X. injection X as X1 X2 X3 X4 X5.
    assert (Ea : a = 0) by (apply (dig_inj a 0); [rewrite Forall_forall in F; apply F; cbn; auto|lia|rewrite <- X1; reflexivity]).
    assert (Ee : e = 0) by (apply (dig_inj e 0); [rewrite Forall_forall in F; apply F; cbn; auto 6|lia|rewrite <- X5; reflexivity]).
    inversion_clear HS as [|? ? _ FS]. rewrite Forall_forall in FS. specialize (FS e ltac:(cbn; auto 6)). lia.
Qed.
Print Assumptions C98_six_refuted.

(** C98: and it is false for every k >= 6: some vertex is not the text of a set, and no set with an element of two or more digits is a vertex
    (for k > 11 no set at all is one). *)
Lemma set_text_length T : (forall i, In i T -> 0 <= i) -> (length T <= length (set_text T))%nat /\
  (length (set_text T) = length T -> forall i, In i T -> 0 <= i < 10).
Proof.
  induction T as [|i T IH]; intros HT; [split; [reflexivity|intros _ i []]|]. unfold set_text in *. cbn [map List.concat].
  rewrite app_length. destruct (IH (fun j Hj => HT j (or_intror Hj))) as (A1 & A2).
  destruct (str_pos i (HT i (or_introl eq_refl))) as (Hd & Hn). destruct (str i) as [|c s] eqn:Es; [congruence|]. cbn [length] in *.
  split; [lia|]. intros Q j [<-|Hj]; [|apply A2; [lia|exact Hj]].
  assert (s = []) by (destruct s; [reflexivity|cbn [length] in Q; lia]). subst s.
  assert (D : exists d, 0 <= d < 10 /\ c = dig d).
  { inversion_clear Hd as [|? ? X _]. unfold digit in X. cbn in X.
    destruct X as [X|[X|[X|[X|[X|[X|[X|[X|[X|[X|[]]]]]]]]]]]; subst c; [exists 0|exists 1|exists 2|exists 3|exists 4|exists 5|exists 6|exists 7|exists 8|exists 9]; (split; [lia|reflexivity]). }
  destruct D as (d & Hd' & ->). rewrite <- str_dig in Es by exact Hd'. apply str_inj in Es. subst. exact Hd'.
Qed.
Lemma subsequence_refl {A} (l : list A) : subsequence l l. Proof. induction l; constructor; assumption. Qed.
Lemma subsequence_firstn {A} n (l : list A) : subsequence (firstn n l) l.
Proof. revert n. induction l as [|x l IH]; intros [|n]; cbn [firstn]; try constructor; [|apply IH]. clear IH. induction l; constructor; assumption. Qed.
Theorem C98_large_refuted k : 6 <= k -> exists g, odd_graph k = Ret g /\
  (exists u, tvertex g u /\ forall S, odd_set k S -> u <> set_text S) /\
  (forall S i, odd_set k S -> In i S -> 10 <= i -> ~ tvertex g (set_text S)) /\
  (11 < k -> forall S, odd_set k S -> ~ tvertex g (set_text S)).
Proof.
  intros Hk. destruct (C98_all k ltac:(lia)) as (g & E & _ & V & _). exists g. split; [exact E|].
  assert (P : forall S, odd_set k S -> tvertex g (set_text S) -> forall i, In i S -> 0 <= i < 10).
  { intros S (HS & Hl & HB) H i Hi. apply V in H as (_ & H). apply (proj2 (set_text_length S (fun j Hj => proj1 (HB j Hj)))); [lia|exact Hi]. }
  split; [|split].
  - set (rest := set_text (zrange 11 (2 * k - 1))). exists (txt "01230" ++ firstn (Z.to_nat (k - 6)) rest).
    assert (Hr : (length (zrange 11 (2 * k - 1)) <= length rest)%nat) by (apply set_text_length; intros i Hi; apply zrange_In in Hi; lia). rewrite zrange_length in Hr.
    assert (Hu : tvertex g (txt "01230" ++ firstn (Z.to_nat (k - 6)) rest)).
    { apply V. split; [|rewrite app_length, firstn_length; cbn [length txt list_ascii_of_string]; lia].
      assert (X : set_text (zrange 0 (2 * k - 1)) = txt "012345678910" ++ rest).
      { rewrite (zrange_app 0 11 (2 * k - 1)) by lia. unfold rest, set_text. rewrite map_app, concat_app. f_equal. }
      rewrite X. cbn [txt list_ascii_of_string List.app]. do 4 apply sub_take. do 7 apply sub_skip. apply sub_take. apply subsequence_firstn. }
    split; [exact Hu|]. intros S HS X.
    assert (F : Forall (fun i => 0 <= i < 10) S) by (apply Forall_forall; apply P; [exact HS|rewrite <- X; exact Hu]).
    rewrite set_text_dig in X by exact F. destruct S as [|a [|b [|c [|d [|e S]]]]]; try discriminate. cbn [map txt list_ascii_of_string List.app] in X. injection X as X1 X2 X3 X4 X5 _.
    assert (Ea : a = 0) by (apply (dig_inj a 0); [rewrite Forall_forall in F; apply F; cbn; auto|lia|rewrite <- X1; reflexivity]).
    assert (Ee : e = 0) by (apply (dig_inj e 0); [rewrite Forall_forall in F; apply F; cbn; auto 6|lia|rewrite <- X5; reflexivity]).
    destruct HS as (HS & _). inversion_clear HS as [|? ? _ FS]. rewrite Forall_forall in FS. specialize (FS e ltac:(cbn; auto 6)). lia.
  - intros S i HS Hi Hi10 H. specialize (P S HS H i Hi). lia.
  - intros Hk' S HS H. pose proof (P S HS H) as B. destruct HS as (HS & Hl & _).
    assert (N : NoDup S) by (clear - HS; induction HS as [|x l _ IH F]; constructor; [intros X; rewrite Forall_forall in F; specialize (F x X); lia|exact IH]).
    assert (L : (length S <= length (zrange 0 10))%nat) by (apply NoDup_incl_length; [exact N|]; intros i Hi; apply zrange_In; apply B, Hi). rewrite zrange_length in L. lia.
Qed.
Print Assumptions C98_large_refuted.

(** The Petersen graph: 10 vertices; "01" and "23" are adjacent. *)
Example odd_petersen : odd_set 3 [0; 1] /\ odd_set 3 [2; 3] /\ choose 5 2 = 10 /\
  match odd_graph 3 with Ret g => tget g (txt "01") = Some [(txt "23", 1); (txt "24", 1); (txt "34", 1)] | _ => False end.
Proof.
  assert (O : forall a b, 0 <= a -> a < b -> b <= 4 -> odd_set 3 [a; b]).
  { intros a b Ha Hab Hb. split; [repeat constructor; exact Hab|]. split; [reflexivity|]. intros i [<-|[<-|[]]]; lia. }
  split; [apply O; lia|]. split; [apply O; lia|]. split; [reflexivity|]. vm_compute. reflexivity.
Qed.
