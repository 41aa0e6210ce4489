(** * Theorems about data_structures/heaps.py (C29, C30) *)
From Coq Require Import ZArith List Lia Bool Permutation Sorted.
From Verif Require Import Base Lists Dict Leftist_Model Heap_Spec Leftist_Proofs
  Pairing_Model Pairing_Spec Pairing_Proofs3.
Import ListNotations.
Open Scope Z_scope.

(** C29.  For every list of at least two initial values and every history of
    operations, every answer of the leftist heap is the answer of the sorted
    list of its contents. *)
Theorem C29_history : forall vs ops, (2 <= length vs)%nat ->
  exists h, lh_init vs = Ret h /\ fst (lh_run h ops) = fst (pq_run (zsort vs) ops).
Proof.
  intros vs ops H. destruct (lh_init_rep vs H) as (h & E & R). exists h. split; [exact E|].
  apply (lh_run_ok ops h (zsort vs) R).
Qed.

(** Iterating over the heap after any history yields its contents in increasing
    order and leaves it empty (a further delete_min answers None). *)
Theorem C29_iterate : forall vs ops, (2 <= length vs)%nat ->
  exists h h', lh_init vs = Ret h /\
    lh_iter (snd (lh_run h ops)) = (map Some (snd (pq_run (zsort vs) ops)), h') /\
    fst (lh_delete_min h') = None /\ lh_len h' = 0.
Proof.
  intros vs ops H. destruct (lh_init_rep vs H) as (h & E & R).
  destruct (lh_run_ok ops h (zsort vs) R) as [_ R2].
  destruct (lh_iter_ok _ _ R2) as (h' & E2 & R3). exists h, h'. split; [exact E|]. split; [exact E2|].
  destruct (lh_step_ok h' [] LDeleteMin R3) as [D _]. cbn in D. destruct (lh_delete_min h') as [v h2].
  cbn in D. injection D as ->. split; [reflexivity|]. unfold lh_len. destruct R3 as (_ & _ & ->). reflexivity.
Qed.

(** The contents stay sorted and gain and lose exactly what the history says. *)
Theorem C29_contents_sorted : forall vs ops, StronglySorted Z.le (snd (pq_run (zsort vs) ops)).
Proof.
  intros vs ops. assert (G : forall ops q, StronglySorted Z.le q -> StronglySorted Z.le (snd (pq_run q ops))).
  { clear. induction ops as [|o ops IH]; intros q H; [exact H|]. cbn [pq_run].
    assert (S : StronglySorted Z.le (snd (pq_step q o))).
    { destruct o; cbn [pq_step].
      - apply zinsert_sorted, H.
      - destruct q; exact H.
      - destruct q; [exact H|]. inversion H; assumption.
      - exact H.
      - destruct (_ <? _)%nat; [exact H|]. apply fold_insert_sorted, H. }
    destruct (pq_step q o) as [r q']. specialize (IH q' S). destruct (pq_run q' ops). exact IH. }
  apply G, zsort_sorted.
Qed.

(** Building from zero or one value raises UnboundLocalError. *)
Theorem C29_init_error : forall vs, (length vs < 2)%nat -> lh_init vs = Raise UnboundLocalError.
Proof. exact lh_init_error. Qed.

(** The depth of the recursion of merge is logarithmic in the size. *)
Theorem C29_depth : forall vs ops h, lh_init vs = Ret h ->
  let h' := snd (lh_run h ops) in
  2 ^ rspine (root h') <= lh_len h' + 1.
Proof.
  intros vs ops h E. cbn zeta. destruct (le_lt_dec 2 (length vs)) as [H|H].
  - destruct (lh_init_rep vs H) as (h0 & E0 & R). rewrite E in E0. injection E0 as <-.
    destruct (lh_run_ok ops h (zsort vs) R) as [_ ((_ & R2 & R3) & _ & R4)].
    unfold lh_len. rewrite R4. rewrite <- (Permutation_length R3), elems_length.
    apply leftist_spine, R2.
  - rewrite lh_init_error in E by exact H. discriminate.
Qed.

Example C29_ex : exists h, lh_init [5; 3; 8] = Ret h /\
  fst (lh_run h [LInsert 1; LFindMin; LDeleteMin; LMerge [4; 4]; LLen; LDeleteMin; LDeleteMin; LDeleteMin]) =
    [RUnit; RVal (Some 1); RVal (Some 1); RUnit; RVal (Some 5); RVal (Some 3); RVal (Some 4); RVal (Some 4)].
Proof. eexists. split; reflexivity. Qed.

(** C30.  Under every history in which a value is inserted only while it is
    absent and keys are only decreased, the pairing heap answers as a queue of
    (key, value) pairs: delete_min returns and removes a pair of least key,
    decrease_key changes exactly one key, list_elements lists the contents. *)
Theorem C30_history : forall ops, allowed_run [] ph_empty ops ->
  exists q, kpq_run [] ops (fst (ph_run ph_empty ops)) q.
Proof.
  intros ops H. destruct (run_ok ops ph_empty [] inv_empty H) as (q & R & _). eauto.
Qed.

(** In particular no operation raises, except decrease_key on a missing value. *)
Theorem C30_no_error : forall ops, allowed_run [] ph_empty ops ->
  forall e, In (PExn e) (fst (ph_run ph_empty ops)) -> e = KeyError.
Proof.
  intros ops H e Hin. destruct (C30_history ops H) as (q & R). revert R Hin.
  generalize (fst (ph_run ph_empty ops)). clear. intros rs R. induction R as [|q o r q' ops rs q'' K R IH]; intros Hin.
  - destruct Hin.
  - destruct Hin as [->|Hin]; [|auto]. inversion K; reflexivity.
Qed.

(** insert_values leaves the heap that inserting the pairs one by one leaves, and does not raise. *)
Theorem C30_insert_values : forall ops kvs, let inserts := map (fun kv => PInsert (fst kv) (snd kv)) kvs in
  allowed_run [] ph_empty (ops ++ inserts) ->
  ph_insert_values (snd (ph_run ph_empty ops)) kvs = Ret (snd (ph_run ph_empty (ops ++ inserts))).
Proof.
  cbv zeta. intros ops kvs.
  enough (G : forall ops h q, inv h q -> allowed_run q h (ops ++ map (fun kv => PInsert (fst kv) (snd kv)) kvs) ->
    ph_insert_values (snd (ph_run h ops)) kvs = Ret (snd (ph_run h (ops ++ map (fun kv => PInsert (fst kv) (snd kv)) kvs)))) by (apply (G ops ph_empty []); exact inv_empty).
  clear ops. induction ops as [|o ops IH]; intros h q H A.
  - cbn [app ph_run snd] in *. revert h q H A. unfold ph_insert_values. induction kvs as [|(k, v) kvs IH]; intros h q H A; [reflexivity|].
    cbn [map fst snd allowed_run] in A. destruct A as [A1 A2]. cbn [map fst snd ph_run]. cbn [allowed] in A1.
    destruct (insert_ok h q k v H A1) as (h' & E & H'). cbn [foldM]. rewrite E. cbn [bind]. cbn [ph_step] in A2 |- *. rewrite E in A2 |- *. cbn [fst snd after] in A2.
    rewrite (IH h' _ H' A2). destruct (ph_run h' _) as [rs h'']. reflexivity.
  - cbn [app allowed_run] in A. destruct A as [A1 A2]. destruct (step_ok h q o H A1) as [_ S2]. cbn [app ph_run].
    destruct (ph_step h o) as [r h']. cbn [fst snd] in *. specialize (IH h' _ S2 A2).
    destruct (ph_run h' ops) as [rs h'']. destruct (ph_run h' (ops ++ _)) as [rs2 h3]. exact IH.
Qed.
Example C30_insert_values_ex : allowed_run [] ph_empty [PInsert 4 40; PDeleteMin; PInsert 3 30; PInsert 1 10] /\
  exists h, ph_insert_values (snd (ph_run ph_empty [PInsert 4 40; PDeleteMin])) [(3, 30); (1, 10)] = Ret h /\ fst (ph_step h PDeleteMin) = PMin (Some (1, 10)).
Proof. split; [vm_compute; auto|]. eexists. split; reflexivity. Qed.

(** Without the restriction the heap can return a pair that is not minimal:
    raising the key of the root leaves it at the root. *)
Theorem C30_increase_refuted k1 k2 k3 v1 v2 : k1 < k2 < k3 -> v1 <> v2 ->
  fst (ph_run ph_empty [PInsert k1 v1; PInsert k2 v2; PDecrease v1 k3; PDeleteMin]) =
    [PUnit; PUnit; PUnit; PMin (Some (k3, v1))].
Proof.
  intros H N. cbv -[Z.ltb Z.leb Z.eqb Z.lt not].
  repeat (first [progress rewrite !Z.eqb_refl | match goal with |- context [(?a <? ?b)] => destruct (Z.ltb_spec a b); [try lia|try lia] | |- context [(?a <=? ?b)] => destruct (Z.leb_spec a b); [try lia|try lia] | |- context [(?a =? ?b)] => destruct (Z.eqb_spec a b); [try lia|try lia] end]; cbv -[Z.ltb Z.leb Z.eqb Z.lt not]).
  all: reflexivity.
Qed.

(** Inserting a value twice makes a later delete_min raise KeyError. *)
Theorem C30_duplicate_refuted k1 k2 v :
  fst (ph_run ph_empty [PInsert k1 v; PInsert k2 v; PDeleteMin; PDeleteMin]) =
    [PUnit; PUnit; PMin (Some (Z.min k1 k2, v)); PExn KeyError].
Proof.
  cbv -[Z.ltb Z.leb Z.eqb Z.min].
  repeat (first [progress rewrite !Z.eqb_refl | match goal with |- context [(?a <? ?b)] => destruct (Z.ltb_spec a b); [try lia|try lia] | |- context [(?a <=? ?b)] => destruct (Z.leb_spec a b); [try lia|try lia] | |- context [(?a =? ?b)] => destruct (Z.eqb_spec a b); [try lia|try lia] end]; cbv -[Z.ltb Z.leb Z.eqb Z.min]).
  all: repeat f_equal; try lia.
Qed.
Example C30_refuted_ex : fst (ph_run ph_empty [PInsert 1 10; PInsert 2 20; PDecrease 10 5; PDeleteMin]) = [PUnit; PUnit; PUnit; PMin (Some (5, 10))] /\
  fst (ph_run ph_empty [PInsert 1 10; PInsert 2 10; PDeleteMin; PDeleteMin]) = [PUnit; PUnit; PMin (Some (1, 10)); PExn KeyError].
Proof. split; reflexivity. Qed.

Definition demo_ops := [PInsert 5 50; PInsert 3 30; PInsert 8 80; PInsert 9 90; PDecrease 80 1; PList; PDeleteMin;
     PDecrease 90 2; PDeleteMin; PInsert 4 80; PDeleteMin; PDecrease 30 0; PDeleteMin; PDeleteMin; PDeleteMin].

Example C30_ex : allowed_run [] ph_empty demo_ops /\
  fst (ph_run ph_empty demo_ops) =
    [PUnit; PUnit; PUnit; PUnit; PUnit; PElems [(5, 50); (3, 30); (1, 80); (9, 90)]; PMin (Some (1, 80));
     PUnit; PMin (Some (2, 90)); PUnit; PMin (Some (3, 30)); PExn KeyError; PMin (Some (4, 80)); PMin (Some (5, 50)); PMin None].
Proof. split; [vm_compute; intuition discriminate|reflexivity]. Qed.

Print Assumptions C29_history.
Print Assumptions C29_iterate.
Print Assumptions C29_contents_sorted.
Print Assumptions C29_init_error.
Print Assumptions C29_depth.
Print Assumptions C30_history.
Print Assumptions C30_no_error.
Print Assumptions C30_insert_values.
Print Assumptions C30_increase_refuted.
Print Assumptions C30_duplicate_refuted.
