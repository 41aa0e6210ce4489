(** * Programs with matrix objects *)
From Coq Require Import ZArith List Bool Lia.
From Verif Require Import Base Py Lists Lists2 Mat_Model Mob_Model Mob_Spec Mob_Proofs.
Import ListNotations.
Open Scope Z_scope.

Fixpoint dropz {A} (s idx : Z) (l : list A) : list A :=
  match l with
  | [] => []
  | x :: l' => if s =? idx then dropz (s + 1) idx l' else x :: dropz (s + 1) idx l'
  end.
Lemma drop_index_dropz {A} idx (l : list A) : drop_index idx l = dropz 0 idx l.
Proof.
  unfold drop_index. change (Z.of_nat (length l)) with (0 + Z.of_nat (length l)). generalize 0 at 1 2 3. induction l as [|x l IH]; intros s; cbn [length dropz]; [destruct (zrange s (s + Z.of_nat 0)); reflexivity|].
  rewrite (zrange_cons s (s + Z.of_nat (S (length l)))) by lia. cbn [combine filter map fst]. replace (s + Z.of_nat (S (length l))) with (s + 1 + Z.of_nat (length l)) by lia.
  destruct (s =? idx); cbn [negb map snd]; rewrite IH; reflexivity.
Qed.
Lemma dropz_map {A B} (f : A -> B) idx l : forall s, dropz s idx (map f l) = map f (dropz s idx l).
Proof. induction l as [|x l IH]; intros s; [reflexivity|]. cbn [map dropz]. destruct (s =? idx); cbn [map]; rewrite IH; reflexivity. Qed.
Lemma dropz_in {A} idx (l : list A) : forall s x, In x (dropz s idx l) -> In x l.
Proof. induction l as [|y l IH]; intros s x H; [exact H|]. cbn [dropz] in H. destruct (s =? idx); [right; eapply IH, H|]. destruct H as [->|H]; [left; reflexivity|right; eapply IH, H]. Qed.
Lemma dropz_nodup {A} idx (l : list A) : forall s, NoDup l -> NoDup (dropz s idx l).
Proof.
  induction l as [|y l IH]; intros s N; [constructor|]. inversion_clear N. cbn [dropz]. destruct (s =? idx); [apply IH; assumption|].
  constructor; [intros X; apply dropz_in in X; contradiction|apply IH; assumption].
Qed.

Record inv (roots : list nat) (s : hstate) (t : vstate) : Prop := {
  inv_ds : snd s = snd t;
  inv_len : length (snd (fst s)) = length (fst t);
  inv_roots : length roots = length (snd (fst s));
  inv_bound : forall k r, nth_error roots k = Some r -> (r < length roots)%nat;
  inv_fits : forall k o, nth_error (snd (fst s)) k = Some o -> exists M, nth_error (fst t) k = Some M /\ fits (fst (fst s)) o M;
  inv_apart : forall k l o o' x, nth_error (snd (fst s)) k = Some o -> nth_error (snd (fst s)) l = Some o' ->
    nth_error roots k <> nth_error roots l -> In x (rows_of o) -> In x (rows_of o') -> False }.

Lemma nth_error_snoc {A} (l : list A) x k y : nth_error (l ++ [x]) k = Some y -> nth_error l k = Some y \/ (k = length l /\ y = x).
Proof.
  intros H. destruct (Nat.lt_ge_cases k (length l)) as [L|L]; [left; rewrite nth_error_app1 in H by exact L; exact H|].
  right. rewrite nth_error_app2 in H by exact L. destruct (k - length l)%nat as [|m] eqn:E; cbn in H; [injection H as <-; split; [lia|reflexivity]|destruct m; discriminate].
Qed.
Lemma nth_error_last {A} (l : list A) x : nth_error (l ++ [x]) (length l) = Some x.
Proof. rewrite nth_error_app2, Nat.sub_diag by lia. reflexivity. Qed.
Lemma nth_error_some_lt {A} (l : list A) k x : nth_error l k = Some x -> (k < length l)%nat.
Proof. intros H. apply nth_error_Some. congruence. Qed.

Lemma fits_kept h h' o M : fits h o M -> (length h <= length h')%nat -> (forall r, In r (rows_of o) -> row_at h' r = row_at h r) -> fits h' o M.
Proof.
  intros ((N & V) & R & E1 & E2 & E3) Hl K. split; [split; [exact N|]; intros r Hr; apply V in Hr; lia|]. split; [|auto]. rewrite <- R. apply map_ext_in. exact K.
Qed.

(** An operation that makes a matrix with new rows. *)
Lemma new_sim roots h env ds V r r' : inv roots (h, env, ds) (V, ds) -> sim (fresh h) r r' ->
  sim (inv (roots ++ [length roots])) (hnew env ds r) (vnew V ds r').
Proof.
  intros I H. unfold hnew, vnew. eapply sim_bind; [exact H|]. intros (h' & o) M (Hf & Hl & K & F). destruct I as [_ I1 I2 I3 I4 I5]. cbn [fst snd] in *.
  constructor; cbn [fst snd]; [reflexivity|rewrite !app_length; cbn; lia|rewrite !app_length; cbn; lia| | |].
  - intros k r0 E. rewrite app_length. cbn [length]. apply nth_error_snoc in E as [E|(_ & ->)]; [apply I3 in E|]; lia.
  - intros k o0 E. apply nth_error_snoc in E as [E|(-> & ->)].
    + destruct (I4 k o0 E) as (M0 & EM & Hf0). exists M0. split; [rewrite nth_error_app1 by (eapply nth_error_some_lt, EM); exact EM|].
      apply (fits_kept h h' o0 M0 Hf0 Hl). intros x Hx. apply K. destruct Hf0 as ((_ & B) & _). apply B, Hx.
    + exists M. rewrite I1. rewrite nth_error_last. auto.
  - assert (O : forall k o0 x, nth_error env k = Some o0 -> In x (rows_of o0) -> In x (rows_of o) -> False).
    { intros k o0 x E Hx Hy. destruct (I4 k o0 E) as (M0 & _ & ((_ & B) & _)). apply B in Hx. apply F in Hy. lia. }
    intros k l o1 o2 x E1 E2 N H1 H2. apply nth_error_snoc in E1 as [E1|(-> & ->)], E2 as [E2|(-> & ->)].
    + apply (I5 k l o1 o2 x E1 E2); [|exact H1|exact H2]. apply nth_error_some_lt in E1, E2. rewrite !nth_error_app1 in N by lia. exact N.
    + eapply (O k o1); eassumption.
    + eapply (O l o2); eassumption.
    + congruence.
Qed.

(** An operation that writes in one matrix only. *)
Lemma write_inv roots h env ds ds' V a o M h' M' : inv roots (h, env, ds) (V, ds) -> nth_error env a = Some o -> nth_error V a = Some M -> fits h o M ->
  (forall b, (b < length roots)%nat -> nth b roots b = nth a roots a -> b = a) -> frame h (rows_of o) h' -> read h' (rows_of o) = M' ->
  inv roots (h', env, ds') (upd V a M', ds').
Proof.
  intros [_ I1 I2 I3 I4 I5] Ea EM Hf C F R. cbn [fst snd] in *. pose proof F as (Fl & Fk & Fc).
  constructor; cbn [fst snd]; [reflexivity|rewrite upd_length; exact I1|exact I2|exact I3| |exact I5].
  assert (La : (a < length V)%nat) by (eapply nth_error_some_lt, EM).
  intros k o0 E. destruct (Nat.eq_dec k a) as [->|N].
  - assert (o0 = o) by congruence. subst o0. exists M'. split.
    + rewrite (nth_error_nth' (upd V a M') (n := a) ([] : matrix)) by (rewrite upd_length; exact La). rewrite upd_nth, Nat.eqb_refl by exact La. reflexivity.
    + destruct Hf as (Vd & Rd & E1 & E2 & E3). split; [eapply frame_valid; eassumption|]. split; [exact R|]. subst M M'.
      assert (X : nrows (read h' (rows_of o)) = nrows (read h (rows_of o)) /\ ncols (read h' (rows_of o)) = ncols (read h (rows_of o)) /\ read h' (rows_of o) <> []).
      { unfold nrows, ncols, read. rewrite !map_length. split; [reflexivity|]. destruct (rows_of o) as [|r rs]; [destruct E3; reflexivity|]. cbn [map hd]. rewrite Fc. split; [reflexivity|discriminate]. }
      destruct X as (X1 & X2 & X3). rewrite X1, X2. auto.
  - destruct (I4 k o0 E) as (M0 & EM0 & Hf0). exists M0. split.
    + assert (Lk : (k < length V)%nat) by (eapply nth_error_some_lt, EM0). rewrite (nth_error_nth' (upd V a M') (n := k) ([] : matrix)) by (rewrite upd_length; exact Lk).
      rewrite upd_nth by exact La. destruct (Nat.eqb_spec k a); [contradiction|]. f_equal. apply nth_error_nth, EM0.
    + apply (fits_kept h h' o0 M0 Hf0); [lia|]. intros x Hx. apply Fk; [destruct Hf0 as ((_ & B) & _); apply B in Hx; lia|]. intros Hy.
      apply (I5 k a o0 o x E Ea); [|exact Hx|exact Hy]. intros Q. apply N, C; [rewrite I2; eapply nth_error_some_lt, E|].
      assert (Lk : (k < length roots)%nat) by (rewrite I2; eapply nth_error_some_lt, E). assert (La' : (a < length roots)%nat) by (rewrite I2; eapply nth_error_some_lt, Ea).
      rewrite (nth_error_nth' roots k Lk), (nth_error_nth' roots a La') in Q. injection Q as Q. exact Q.
Qed.

Lemma named_sim roots h env ds V a : inv roots (h, env, ds) (V, ds) -> sim (fun o M => fits h o M /\ nth_error env a = Some o /\ nth_error V a = Some M) (named env a) (named V a).
Proof.
  intros [_ I1 I2 I3 I4 I5]. cbn [fst snd] in *. unfold named. destruct (nth_error env a) as [o|] eqn:E.
  - destruct (I4 a o E) as (M & EM & Hf). rewrite EM. cbn [sim]. auto.
  - apply nth_error_None in E. rewrite I1 in E. apply nth_error_None in E. rewrite E. reflexivity.
Qed.

Lemma delete_row_sim roots h env ds V a o M idx : inv roots (h, env, ds) (V, ds) -> nth_error env a = Some o -> fits h o M ->
  sim (inv (roots ++ [nth a roots (length roots)])) (hnew env ds (h_delete_row h idx o)) (vnew V ds (delete_row idx M)).
Proof.
  intros [_ I1 I2 I3 I4 I5] Ea Hf. cbn [fst snd] in *. unfold h_delete_row, delete_row. destruct Hf as ((N & B) & R & _).
  assert (Vd : valid h (drop_index idx (rows_of o))).
  { rewrite drop_index_dropz. split; [apply dropz_nodup, N|]. intros r Hr. apply B. eapply dropz_in, Hr. }
  assert (Er : drop_index idx M = read h (drop_index idx (rows_of o))) by (rewrite <- R, !drop_index_dropz; apply dropz_map).
  rewrite Er. pose proof (new_object_ok h _ Vd) as O. destruct (new_object h (drop_index idx (rows_of o))) as [o'|e|], (new_matrix (read h (drop_index idx (rows_of o)))) as [M'|e'|]; cbn in O |- *; auto.
  destruct O as (Erows & Hf' & ->). assert (La : (a < length roots)%nat) by (rewrite I2; eapply nth_error_some_lt, Ea).
  constructor; cbn [fst snd]; [reflexivity|rewrite !app_length; cbn; lia|rewrite !app_length; cbn; lia| | |].
  - intros k r0 E. rewrite app_length. cbn [length]. apply nth_error_snoc in E as [E|(_ & ->)]; [apply I3 in E; lia|].
    pose proof (I3 a _ (nth_error_nth' roots (length roots) La)). lia.
  - intros k o0 E. apply nth_error_snoc in E as [E|(-> & ->)].
    + destruct (I4 k o0 E) as (M0 & EM & Hf0). exists M0. split; [rewrite nth_error_app1 by (eapply nth_error_some_lt, EM); exact EM|exact Hf0].
    + eexists. rewrite I1. rewrite nth_error_last. split; [reflexivity|exact Hf'].
  - assert (S : forall x, In x (rows_of o') -> In x (rows_of o)) by (intros x Hx; rewrite Erows, drop_index_dropz in Hx; eapply dropz_in, Hx).
    assert (Q : nth_error (roots ++ [nth a roots (length roots)]) (length roots) = nth_error roots a) by (rewrite nth_error_last; symmetry; apply nth_error_nth', La).
    intros k l o1 o2 x E1 E2 NE H1 H2. apply nth_error_snoc in E1 as [E1|(-> & ->)], E2 as [E2|(-> & ->)].
    + apply (I5 k l o1 o2 x E1 E2); [|exact H1|exact H2]. apply nth_error_some_lt in E1, E2. rewrite !nth_error_app1 in NE by lia. exact NE.
    + apply (I5 k a o1 o x E1 Ea); [|exact H1|apply S, H2]. rewrite <- I2, Q in NE. apply nth_error_some_lt in E1. rewrite nth_error_app1 in NE by lia. exact NE.
    + apply (I5 a l o o2 x Ea E2); [|apply S, H1|exact H2]. rewrite <- I2, Q in NE. apply nth_error_some_lt in E2. rewrite nth_error_app1 in NE by lia. exact NE.
    + congruence.
Qed.

Definition allowed (l : list nat) (op : mop) : Prop :=
  match op with
  | MSet a _ _ _ | MDet a => forall b, (b < length l)%nat -> nth b l b = nth a l a -> b = a
  | _ => True
  end.

Lemma step_sim roots s t op : inv roots s t -> allowed roots op -> sim (inv (root_step roots op)) (hstep s op) (vstep t op).
Proof.
  destruct s as [[h env] ds], t as [V ds']. intros I C. assert (ds' = ds) by (symmetry; exact (inv_ds _ _ _ I)). subst ds'.
  destruct op as [L|r c|a b|a b|a|c a|a b|idx a|idx a|a i j v|a]; cbn [hstep vstep root_step allowed] in *.
  - eapply new_sim; [exact I|]. apply alloc_fresh.
  - eapply new_sim; [exact I|]. apply alloc_fresh.
  - eapply sim_bind; [exact (named_sim _ _ _ _ _ _ I)|]. intros o M (Ho & Eo & _). eapply sim_bind; [exact (named_sim _ _ _ _ _ _ I)|]. intros o' M' (Ho' & Eo' & _).
    eapply new_sim; [exact I|]. pose proof Ho as (_ & _ & E1 & E2 & _). unfold h_add, m_add. rewrite E1, E2. apply hbuild_sim. intros h1 rows Hl K F h2 X i j Rl.
    rewrite (operand_get h o M h1 rows h2 X i j _ Ho Hl K F Rl), (operand_get h o' M' h1 rows h2 X i j _ Ho' Hl K F Rl). reflexivity.
  - eapply sim_bind; [exact (named_sim _ _ _ _ _ _ I)|]. intros o M (Ho & Eo & _). eapply sim_bind; [exact (named_sim _ _ _ _ _ _ I)|]. intros o' M' (Ho' & Eo' & _).
    eapply new_sim; [exact I|]. pose proof Ho as (_ & _ & E1 & E2 & _). unfold h_sub, m_sub. rewrite E1, E2. apply hbuild_sim. intros h1 rows Hl K F h2 X i j Rl.
    rewrite (operand_get h o M h1 rows h2 X i j _ Ho Hl K F Rl), (operand_get h o' M' h1 rows h2 X i j _ Ho' Hl K F Rl). reflexivity.
  - eapply sim_bind; [exact (named_sim _ _ _ _ _ _ I)|]. intros o M (Ho & Eo & _).
    eapply new_sim; [exact I|]. pose proof Ho as (_ & _ & E1 & E2 & _). unfold h_neg, m_neg. rewrite E1, E2. apply hbuild_sim. intros h1 rows Hl K F h2 X i j Rl.
    rewrite (operand_get h o M h1 rows h2 X i j _ Ho Hl K F Rl). reflexivity.
  - eapply sim_bind; [exact (named_sim _ _ _ _ _ _ I)|]. intros o M (Ho & Eo & _).
    eapply new_sim; [exact I|]. pose proof Ho as (_ & _ & E1 & E2 & _). unfold h_scale, m_scale. rewrite E1, E2. apply sim_value_error, hbuild_sim. intros h1 rows Hl K F h2 X i j Rl.
    rewrite (operand_get h o M h1 rows h2 X i j _ Ho Hl K F Rl). reflexivity.
  - eapply sim_bind; [exact (named_sim _ _ _ _ _ _ I)|]. intros o M (Ho & Eo & _). eapply sim_bind; [exact (named_sim _ _ _ _ _ _ I)|]. intros o' M' (Ho' & Eo' & _).
    eapply new_sim; [exact I|]. pose proof Ho as (_ & _ & E1 & E2 & _). pose proof Ho' as (_ & _ & E1' & E2' & _). unfold h_mul, m_mul. rewrite E1, E2, E1', E2'.
    destruct (negb (ncols M =? nrows M')); [reflexivity|]. apply hbuild_sim. intros h1 rows Hl K F h2 X i j Rl.
    assert (Q : forall l t, foldM (fun total k => do x <- hget h2 (rows_of o) i k; do y <- hget h2 (rows_of o') k j; Ret (total + x * y)) l t =
                            foldM (fun total k => do x <- mget M i k; do y <- mget M' k j; Ret (total + x * y)) l t); [|apply Q].
    induction l as [|k l IH]; intros t; [reflexivity|]. cbn [foldM]. rewrite (operand_get h o M h1 rows h2 X i k _ Ho Hl K F Rl), (operand_get h o' M' h1 rows h2 X k j _ Ho' Hl K F Rl).
    destruct (mget M i k); cbn [bind]; [|reflexivity|reflexivity]. destruct (mget M' k j); cbn [bind]; [|reflexivity|reflexivity]. apply IH.
  - eapply sim_bind; [exact (named_sim _ _ _ _ _ _ I)|]. intros o M (Ho & Eo & _).
    eapply new_sim; [exact I|]. unfold h_delete_col, delete_col. destruct Ho as ((N & B) & R & _).
    rewrite (mapM_ret _ (row_at h)) by (intros r Hr; apply pyget_row, B, Hr). cbn [bind]. unfold read in R. rewrite R. apply alloc_fresh.
  - eapply sim_bind; [exact (named_sim _ _ _ _ _ _ I)|]. intros o M (Ho & Eo & _). apply (delete_row_sim roots h env ds V a o M idx I Eo Ho).
  - eapply sim_bind; [exact (named_sim _ _ _ _ _ _ I)|]. intros o M (Ho & Eo & EM). pose proof Ho as (Vd & R & _). pose proof (hset_sim h (rows_of o) i j v Vd) as Hs. rewrite R in Hs.
    eapply sim_bind; [exact Hs|]. intros h' M' (F & R'). cbn [sim]. eapply write_inv; eassumption.
  - eapply sim_bind; [exact (named_sim _ _ _ _ _ _ I)|]. intros o M (Ho & Eo & EM). pose proof Ho as (Vd & R & E1 & E2 & _). unfold h_determinant, determinant. rewrite E1, E2.
    destruct (negb (nrows M =? ncols M)); [reflexivity|].
    eapply sim_bind; [apply (rounds_sim h (rows_of o) (ncols M) (zrange 0 (ncols M)) 1 1 None h M Vd); split; [apply frame_refl|exact R]|].
    intros (d & h') (d' & M') (Ed & (F & R')). cbn [fst snd] in *. subst d'. cbn [sim]. eapply write_inv; eassumption.
Qed.

Lemma run_sim p : forall roots s t, inv roots s t -> careful roots p -> sim (fun s t => exists roots, inv roots s t) (foldM hstep p s) (foldM vstep p t).
Proof.
  induction p as [|op p IH]; intros roots s t I C; [exists roots; exact I|]. cbn [careful foldM] in *. destruct C as (C1 & C2).
  eapply sim_bind; [apply (step_sim roots s t op I); destruct op; exact C1|]. intros s' t' I'. eapply IH; eassumption.
Qed.

Lemma inv_start : inv [] ([], [], []) ([], []).
Proof. constructor; cbn; try reflexivity; intros [|k]; discriminate. Qed.
