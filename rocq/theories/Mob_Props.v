(** * Matrix objects: the properties *)
From Coq Require Import ZArith List Bool Lia.
From Verif Require Import Base Py Lists Lists2 Mat_Model Mat_Proofs Mob_Model Mob_Spec Mob_Proofs Mob_Proofs2.
Import ListNotations.
Open Scope Z_scope.

(** C99: in a program that changes no matrix sharing rows with another one through delete_row, matrices behave as values: what one reads in
    every object at the end, the determinants found on the way, and the exceptions, are those of the program on values. *)
Theorem C99_values p : careful [] p ->
  (forall h env ds, hrun p = Ret (h, env, ds) -> vrun p = Ret (map (contents h) env, ds)) /\
  (forall V ds, vrun p = Ret (V, ds) -> exists h env, hrun p = Ret (h, env, ds) /\ map (contents h) env = V) /\
  (forall e, hrun p = Raise e <-> vrun p = Raise e).
Proof.
  intros C. pose proof (run_sim p [] _ _ inv_start C) as S. fold (hrun p) (vrun p) in S.
  destruct (hrun p) as [[[h env] ds]|e|], (vrun p) as [[V ds']|e'|]; cbn [sim] in S; try contradiction.
  - destruct S as (roots & [D L _ _ F _]). cbn [fst snd] in *. subst ds'.
    assert (E : map (contents h) env = V).
    { apply nth_ext with (d := contents h ([], 0, 0)) (d' := []); [rewrite map_length; exact L|]. intros k Hk. rewrite map_length in Hk.
      rewrite map_nth. destruct (nth_error env k) as [o|] eqn:Eo; [|apply nth_error_None in Eo; lia]. destruct (F k o Eo) as (M & EM & _ & R & _).
      rewrite (nth_error_nth _ _ _ Eo), (nth_error_nth _ _ _ EM). exact R. }
    split; [intros h0 env0 ds0 X; injection X as <- <- <-; rewrite E; reflexivity|]. split; [|split; discriminate].
    intros V0 ds0 X. injection X as <- <-. exists h, env. auto.
  - subst e'. split; [discriminate|]. split; [discriminate|]. intros e0. split; intros X; injection X as ->; reflexivity.
  - split; [discriminate|]. split; [discriminate|]. split; discriminate.
Qed.
Print Assumptions C99_values.

(** C99: in particular every program without delete_row: sums, differences, negatives, multiples, products and delete_col share nothing with
    their operands, and no later assignment to an entry, and no determinant (which overwrites its matrix), changes another matrix. *)
Lemma careful_fresh p : (forall idx a, ~ In (MDelRow idx a) p) -> forall l, (forall k, (k < length l)%nat -> nth k l k = k) -> careful l p.
Proof.
  induction p as [|op p IH]; intros H l Hl; [exact I|]. cbn [careful]. split.
  - assert (C : forall a b, (b < length l)%nat -> nth b l b = nth a l a -> b = a).
    { intros a b Hb E. rewrite Hl in E by exact Hb. destruct (Nat.lt_ge_cases a (length l)) as [La|La]; [rewrite Hl in E by exact La; exact E|].
      rewrite nth_overflow in E by exact La. exact E. }
    destruct op; try exact I; exact (C _).
  - apply IH; [intros idx a X; apply (H idx a); right; exact X|].
    assert (N : forall k, (k < length (l ++ [length l]))%nat -> nth k (l ++ [length l]) k = k).
    { intros k Hk. rewrite app_length in Hk. cbn [length] in Hk. destruct (Nat.lt_ge_cases k (length l)) as [L|L].
      - rewrite app_nth1 by exact L. apply Hl, L.
      - assert (k = length l) by lia. subst. rewrite app_nth2, Nat.sub_diag by lia. reflexivity. }
    destruct op; cbn [root_step]; try exact N; try exact Hl. exfalso. eapply H. left. reflexivity.
Qed.
Theorem C99_no_delete_row p : (forall idx a, ~ In (MDelRow idx a) p) ->
  (forall h env ds, hrun p = Ret (h, env, ds) -> vrun p = Ret (map (contents h) env, ds)) /\
  (forall V ds, vrun p = Ret (V, ds) -> exists h env, hrun p = Ret (h, env, ds) /\ map (contents h) env = V) /\
  (forall e, hrun p = Raise e <-> vrun p = Raise e).
Proof. intros H. apply C99_values. apply careful_fresh; [exact H|]. cbn. lia. Qed.
Print Assumptions C99_no_delete_row.

(** C99: with delete_row it is false, for every matrix there is and every entry of the result: after N = M.delete_row(idx); N[i, j] = v
    the matrix M has v at the place of that entry too, row i, or row i+1 if the deleted one came before it. *)
Theorem C99_delete_row_refuted p h env ds a M (idx i j : nat) v : careful [] p -> hrun p = Ret (h, env, ds) -> nth_error (map (contents h) env) a = Some M ->
  let i' := if (i <? idx)%nat then i else S i in (idx < length M)%nat -> (i' < length M)%nat -> (j < length (nth i' M []))%nat ->
  exists h' env', hrun (p ++ [MDelRow (Z.of_nat idx) a; MSet (length env) (Z.of_nat i) (Z.of_nat j) v]) = Ret (h', env', ds) /\
    nth_error (map (contents h') env') a = Some (upd M i' (upd (nth i' M []) j v)).
Proof.
  intros C E Ea i' Hidx Hi Hj. pose proof (run_sim p [] _ _ inv_start C) as S. fold (hrun p) (vrun p) in S. rewrite E in S.
  destruct (vrun p) as [[V ds']|e'|]; cbn [sim] in S; try contradiction. destruct S as (roots & [_ _ _ _ F _]). cbn [fst snd] in F.
  rewrite nth_error_map in Ea. destruct (nth_error env a) as [o|] eqn:Eo; [|discriminate]. injection Ea as EM.
  destruct (F a o Eo) as (M' & _ & (VN & R & _ & _ & _)). change (contents h o) with (read h (rows_of o)) in EM. rewrite R in EM. subst M'. clear F.
  assert (Lr : length (rows_of o) = length M) by (rewrite <- R; unfold read; rewrite map_length; reflexivity).
  assert (Hd : forall k, nth k (firstn idx (rows_of o) ++ skipn (Datatypes.S idx) (rows_of o)) 0 = nth (if (k <? idx)%nat then k else Datatypes.S k) (rows_of o) 0).
  { intros k. destruct (Nat.ltb_spec k idx) as [L|L].
    - rewrite app_nth1 by (rewrite firstn_length; lia). rewrite <- (firstn_skipn idx (rows_of o)) at 2. rewrite app_nth1 by (rewrite firstn_length; lia). reflexivity.
    - rewrite app_nth2 by (rewrite firstn_length; lia). rewrite firstn_length, Lr, Nat.min_l by lia.
      rewrite <- (firstn_skipn (Datatypes.S idx) (rows_of o)) at 2. rewrite (app_nth2 (firstn _ _)) by (rewrite firstn_length; lia).
      rewrite firstn_length, Lr, Nat.min_l by lia. reflexivity. }
  assert (Ld : Z.of_nat i < Z.of_nat (length (drop_index (Z.of_nat idx) (rows_of o)))).
  { rewrite drop_index_ok, app_length, firstn_length, skipn_length, Lr. unfold i' in Hi. destruct (Nat.ltb_spec i idx); lia. }
  assert (Vd : valid h (drop_index (Z.of_nat idx) (rows_of o))).
  { destruct VN as (N & B). rewrite drop_index_dropz. split; [apply dropz_nodup, N|]. intros r Hr. apply B. eapply dropz_in, Hr. }
  pose proof (new_object_ok h _ Vd) as O. unfold new_matrix in O.
  destruct (read h (drop_index (Z.of_nat idx) (rows_of o))) as [|r0 rs] eqn:Er; [apply (f_equal (@length _)) in Er; unfold read in Er; rewrite map_length in Er; cbn in Er; lia|].
  destruct (new_object h (drop_index (Z.of_nat idx) (rows_of o))) as [o'|e|] eqn:En; cbn [sim] in O; try contradiction. destruct O as (Eo' & _).
  set (r := nth i' (rows_of o) 0).
  assert (Hr : 0 <= r < Z.of_nat (length h)) by (apply VN, nth_In; lia).
  assert (Erow : row_at h r = nth i' M []).
  { rewrite <- R. unfold read. rewrite (nth_indep _ [] (row_at h 0)) by (rewrite map_length; lia). rewrite map_nth. reflexivity. }
  exists (upd h (Z.to_nat r) (upd (nth i' M []) j v)), (env ++ [o']).
  unfold hrun. rewrite foldM_app. fold (hrun p). rewrite E. cbn [bind foldM hstep]. unfold named at 1. rewrite Eo. cbn [bind hnew]. unfold h_delete_row. rewrite En. cbn [bind hnew].
  cbn [hstep]. unfold named. rewrite nth_error_last. cbn [bind]. unfold hset. rewrite Eo'.
  rewrite (pyget_nth _ (Z.of_nat i) 0) by lia. rewrite drop_index_ok, Hd, Nat2Z.id. fold i' r. cbn [bind].
  rewrite pyget_row, Erow by exact Hr. cbn [bind]. rewrite pyset_upd by lia. cbn [bind]. rewrite Nat2Z.id. rewrite pyset_upd by lia. cbn [bind]. split; [reflexivity|].
  rewrite nth_error_map, nth_error_app1 by (eapply nth_error_some_lt, Eo). rewrite Eo. cbn [option_map]. f_equal.
  change (read (upd h (Z.to_nat r) (upd (nth i' M []) j v)) (rows_of o) = upd M i' (upd (nth i' M []) j v)).
  rewrite (read_upd h (rows_of o) i' r) by (try exact VN; unfold r; apply nth_error_nth'; lia). rewrite R. reflexivity.
Qed.
Print Assumptions C99_delete_row_refuted.
Example C99_delete_row_ex : exists h a b, hrun [MNew [[1; 2]; [3; 4]]; MDelRow 0 0; MSet 1 0 0 9] = Ret (h, [a; b], []) /\
  contents h a = [[1; 2]; [9; 4]] /\ contents h b = [[9; 4]].
Proof. do 3 eexists. split; [vm_compute; reflexivity|]. split; vm_compute; reflexivity. Qed.

(** ... and M.delete_row(0).determinant() changes M. *)
Theorem C99_minor_refuted : exists h a b c, hrun [MNew [[1; 0; 0]; [5; 1; 2]; [6; 3; 4]]; MDelCol 0 0; MDelRow 0 1; MDet 2] = Ret (h, [a; b; c], [-2]) /\
  contents h a = [[1; 0; 0]; [5; 1; 2]; [6; 3; 4]] /\ contents h b = [[0; 0]; [1; 2]; [3; -2]].
Proof. do 4 eexists. split; [vm_compute; reflexivity|]. split; vm_compute; reflexivity. Qed.
Print Assumptions C99_minor_refuted.

(** A careful program with delete_row: the matrix changed has no relatives. *)
Example careful_example : careful [] [MNew [[1; 2]; [3; 4]]; MNeg 0; MDelRow 0 0; MSet 1 0 0 7; MAdd 0 1; MDet 3] /\
  vrun [MNew [[1; 2]; [3; 4]]; MNeg 0; MDelRow 0 0; MSet 1 0 0 7; MAdd 0 1; MDet 3] =
    Ret ([[[1; 2]; [3; 4]]; [[7; -2]; [-3; -4]]; [[3; 4]]; [[8; 0]; [0; 0]]], [0]).
Proof.
  split; [|vm_compute; reflexivity]. cbn. repeat split; intros [|[|[|[|b]]]] H E; cbn in *; try lia; try discriminate.
Qed.
