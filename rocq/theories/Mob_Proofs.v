(** * Matrix objects in a store behave like values *)
From Coq Require Import ZArith List Bool Lia.
From Verif Require Import Base Py Lists Lists2 Mat_Model Mob_Model Mob_Spec.
Import ListNotations.
Open Scope Z_scope.

Definition sim {A B} (R : A -> B -> Prop) (x : outcome A) (y : outcome B) : Prop :=
  match x, y with
  | Ret a, Ret b => R a b
  | Raise e, Raise e' => e = e'
  | Diverge, Diverge => True
  | _, _ => False
  end.

Lemma sim_bind {A B C D} (R : A -> B -> Prop) (Q : C -> D -> Prop) x y f g :
  sim R x y -> (forall a b, R a b -> sim Q (f a) (g b)) -> sim Q (bind x f) (bind y g).
Proof. intros H K. destruct x, y; cbn in *; try contradiction; auto. Qed.

Lemma sim_eq {A} (x : outcome A) : sim eq x x. Proof. destruct x; cbn; auto. Qed.

Lemma sim_value_error {A B} (R : A -> B -> Prop) x y : sim R x y -> sim R (value_error x) (value_error y).
Proof. destruct x, y; cbn; auto; contradiction. Qed.

Lemma sim_foldM {A S T} (R : S -> T -> Prop) (f : S -> A -> outcome S) (g : T -> A -> outcome T) l : forall s t, R s t ->
  (forall s t x, In x l -> R s t -> sim R (f s x) (g t x)) -> sim R (foldM f l s) (foldM g l t).
Proof.
  induction l as [|x l IH]; intros s t H K; [exact H|]. cbn [foldM]. eapply sim_bind; [apply K; [left; reflexivity|exact H]|].
  intros s' t' H'. apply IH; [exact H'|]. intros s2 t2 y Hy. apply K. right. exact Hy.
Qed.

Definition row_at (h : store) (r : Z) : list Z := nth (Z.to_nat r) h [].
Definition read (h : store) (rows : list Z) : matrix := map (row_at h) rows.
Definition valid (h : store) (rows : list Z) : Prop := NoDup rows /\ forall r, In r rows -> 0 <= r < Z.of_nat (length h).

(** [frame h0 rows h]: h is h0 with other numbers in the given rows. *)
Definition frame (h0 : store) (rows : list Z) (h : store) : Prop :=
  length h = length h0 /\ (forall r, 0 <= r -> ~ In r rows -> row_at h r = row_at h0 r) /\ (forall r, length (row_at h r) = length (row_at h0 r)).

Lemma frame_refl h rows : frame h rows h. Proof. split; [reflexivity|split; reflexivity]. Qed.
Lemma frame_trans h0 h1 h2 rows : frame h0 rows h1 -> frame h1 rows h2 -> frame h0 rows h2.
Proof.
  intros (A1 & A2 & A3) (B1 & B2 & B3). split; [congruence|]. split; intros r; [intros Hr Hn; rewrite B2, A2 by assumption; reflexivity|rewrite B3; apply A3].
Qed.
Lemma frame_valid h0 rows h s : frame h0 rows h -> valid h0 s -> valid h s.
Proof. intros (E & _) (N & V). split; [exact N|]. rewrite E. exact V. Qed.
Lemma frame_read h0 rows h s : frame h0 rows h -> valid h0 s -> (forall r, In r s -> ~ In r rows) -> read h s = read h0 s.
Proof. intros (_ & F & _) (_ & V) D. apply map_ext_in. intros r Hr. apply F; [apply V in Hr; lia|apply D, Hr]. Qed.

Lemma pyidx_same {A B} (l : list A) (m : list B) i : length l = length m -> pyidx l i = pyidx m i.
Proof. intros E. unfold pyidx. rewrite E. reflexivity. Qed.
Lemma pyidx_bound {A} (l : list A) i k : pyidx l i = Some k -> (k < length l)%nat.
Proof.
  unfold pyidx. destruct ((0 <=? i) && (i <? Z.of_nat (length l))) eqn:E1.
  - apply andb_prop in E1 as (E1 & E2). apply Z.leb_le in E1. apply Z.ltb_lt in E2. intros X. injection X as <-. lia.
  - destruct ((- Z.of_nat (length l) <=? i) && (i <? 0)) eqn:E2; [|discriminate]. apply andb_prop in E2 as (E2 & E3). apply Z.leb_le in E2. apply Z.ltb_lt in E3.
    intros X. injection X as <-. lia.
Qed.

Lemma pyget_read h rows i : pyget (read h rows) i = match pyget rows i with Ret r => Ret (row_at h r) | Raise e => Raise e | Diverge => Diverge end.
Proof.
  unfold pyget, read. rewrite (pyidx_same (map (row_at h) rows) rows i) by apply map_length. destruct (pyidx rows i) as [k|] eqn:E; [|reflexivity].
  rewrite nth_error_map. destruct (nth_error rows k); reflexivity.
Qed.
Lemma pyget_in {A} (l : list A) i x : pyget l i = Ret x -> exists k, pyidx l i = Some k /\ nth_error l k = Some x.
Proof. unfold pyget. destruct (pyidx l i) as [k|]; [|discriminate]. destruct (nth_error l k) eqn:E; [|discriminate]. intros X. injection X as <-. eauto. Qed.
Lemma pyget_row h r : 0 <= r < Z.of_nat (length h) -> pyget h r = Ret (row_at h r).
Proof. intros H. apply pyget_nth, H. Qed.

Lemma hget_read h rows i j : valid h rows -> hget h rows i j = mget (read h rows) i j.
Proof.
  intros (N & V). unfold hget, mget. rewrite pyget_read. destruct (pyget rows i) as [r|e|] eqn:E; cbn [bind]; [|reflexivity|reflexivity].
  apply pyget_in in E as (k & _ & E). apply nth_error_In in E. rewrite pyget_row by (apply V, E). reflexivity.
Qed.

Lemma read_upd h rows k r row : valid h rows -> nth_error rows k = Some r -> read (upd h (Z.to_nat r) row) rows = upd (read h rows) k row.
Proof.
  intros (N & V) E. assert (Hr : 0 <= r < Z.of_nat (length h)) by (apply V; eapply nth_error_In, E).
  assert (X : forall rs k, NoDup rs -> (forall x, In x rs -> 0 <= x < Z.of_nat (length h)) -> nth_error rs k = Some r -> read (upd h (Z.to_nat r) row) rs = upd (read h rs) k row).
  { clear k E N V. unfold read, row_at. induction rs as [|x rs IH]; intros k N V E; [destruct k; discriminate|]. inversion_clear N. cbn [map].
    rewrite upd_nth by lia. destruct k as [|k]; cbn [nth_error] in E.
    - injection E as ->. rewrite Nat.eqb_refl. cbn [upd]. f_equal. apply map_ext_in. intros y Hy. rewrite upd_nth by lia.
      destruct (Nat.eqb_spec (Z.to_nat y) (Z.to_nat r)) as [Q|Q]; [|reflexivity]. assert (y = r) by (specialize (V y (or_intror Hy)); lia). subst. contradiction.
    - cbn [upd]. destruct (Nat.eqb_spec (Z.to_nat x) (Z.to_nat r)) as [Q|Q].
      + assert (x = r) by (specialize (V x (or_introl eq_refl)); lia). subst. apply nth_error_In in E. contradiction.
      + f_equal. apply IH; [assumption|intros y Hy; apply V; right; exact Hy|exact E]. }
  apply X; assumption.
Qed.

Lemma pyset_length {A} (l : list A) j v l' : pyset l j v = Ret l' -> length l' = length l.
Proof. unfold pyset. destruct (pyidx l j); [|discriminate]. intros X. injection X as <-. apply upd_length. Qed.

Lemma hset_sim h rows i j v : valid h rows -> sim (fun h' M' => frame h rows h' /\ read h' rows = M') (hset h rows i j v) (mset (read h rows) i j v).
Proof.
  intros HV. pose proof HV as (N & V). unfold hset, mset. rewrite pyget_read. destruct (pyget rows i) as [r|e|] eqn:E; cbn [bind]; [|reflexivity|exact I].
  apply pyget_in in E as (k & Ek & E). assert (Hr : 0 <= r < Z.of_nat (length h)) by (apply V; eapply nth_error_In, E).
  rewrite pyget_row by exact Hr. cbn [bind]. destruct (pyset (row_at h r) j v) as [row|e|] eqn:Er; cbn [bind]; [|reflexivity|exact I].
  rewrite pyset_upd by exact Hr. unfold pyset. rewrite (pyidx_same (read h rows) rows i) by apply map_length. rewrite Ek. cbn [sim].
  split; [|apply read_upd; assumption]. apply pyset_length in Er. split; [apply upd_length|]. unfold row_at in *. split.
  - intros r' Hr' Hn. rewrite upd_nth by lia. destruct (Nat.eqb_spec (Z.to_nat r') (Z.to_nat r)) as [Q|Q]; [|reflexivity].
    assert (r' = r) by lia. subst. apply nth_error_In in E. contradiction.
  - intros r'. rewrite upd_nth by lia. destruct (Nat.eqb_spec (Z.to_nat r') (Z.to_nat r)) as [Q|Q]; [|reflexivity]. rewrite Q. exact Er.
Qed.

(** The relation between stores and values during an operation that writes in the given rows only. *)
Definition rel (h0 : store) (rows : list Z) (h : store) (M : matrix) : Prop := frame h0 rows h /\ read h rows = M.

Lemma rel_set h0 rows h M i j v : valid h0 rows -> rel h0 rows h M -> sim (rel h0 rows) (hset h rows i j v) (mset M i j v).
Proof.
  intros V (F & <-). pose proof (hset_sim h rows i j v (frame_valid _ _ _ _ F V)) as H.
  destruct (hset h rows i j v), (mset (read h rows) i j v); cbn [sim] in *; auto. destruct H as (F' & E). split; [eapply frame_trans; eassumption|exact E].
Qed.
Lemma rel_get h0 rows h M i j : valid h0 rows -> rel h0 rows h M -> hget h rows i j = mget M i j.
Proof. intros V (F & <-). apply hget_read. eapply frame_valid; eassumption. Qed.

Lemma hfill_sim h0 rows r c f g h M : valid h0 rows -> rel h0 rows h M -> (forall h M i j, rel h0 rows h M -> f h i j = g i j) ->
  sim (rel h0 rows) (hfill r c f rows h) (fill r c g M).
Proof.
  intros V H Hf. apply sim_foldM; [exact H|]. intros h1 M1 i _ H1. apply sim_foldM; [exact H1|]. intros h2 M2 j _ H2.
  rewrite (Hf h2 M2 i j H2). eapply sim_bind; [apply sim_eq|]. intros v v' <-. apply rel_set; assumption.
Qed.

(** ** Determinants *)
Lemma find_row_sim h0 rows k is : forall iv h M, valid h0 rows -> rel h0 rows h M -> h_find_row h rows k is iv = find_row M k is iv.
Proof.
  induction is as [|i is IH]; intros iv h M V H; [reflexivity|]. cbn [h_find_row find_row]. rewrite (rel_get h0 rows h M i k V H).
  destruct (mget M i k) as [x|e|]; cbn [bind]; [|reflexivity|reflexivity]. destruct (negb (x =? 0)); [reflexivity|]. apply IH; assumption.
Qed.

Lemma swap_sim h0 rows n k i h M : valid h0 rows -> rel h0 rows h M -> sim (rel h0 rows) (h_swap_rows rows n k i h) (swap_rows n k i M).
Proof.
  intros V H. apply sim_foldM; [exact H|]. intros h1 M1 j _ H1. rewrite !(rel_get h0 rows h1 M1) by assumption.
  eapply sim_bind; [apply sim_eq|]. intros x ? <-. eapply sim_bind; [apply sim_eq|]. intros y ? <-.
  eapply sim_bind; [apply rel_set; eassumption|]. intros h2 M2 H2. apply rel_set; assumption.
Qed.

Lemma eliminate_sim h0 rows n k p d h M : valid h0 rows -> rel h0 rows h M -> sim (rel h0 rows) (h_eliminate rows n k p d h) (eliminate n k p d M).
Proof.
  intros V H. apply sim_foldM; [exact H|]. intros h1 M1 i _ H1. apply sim_foldM; [exact H1|]. intros h2 M2 j _ H2. rewrite !(rel_get h0 rows h2 M2) by assumption.
  eapply sim_bind; [apply sim_eq|]. intros a ? <-. eapply sim_bind; [apply sim_eq|]. intros b ? <-. eapply sim_bind; [apply sim_eq|]. intros c ? <-.
  eapply sim_bind; [apply sim_eq|]. intros v ? <-. apply rel_set; assumption.
Qed.

Definition rel_det (h0 : store) (rows : list Z) (x : Z * store) (y : Z * matrix) : Prop := fst x = fst y /\ rel h0 rows (snd x) (snd y).

Lemma rounds_sim h0 rows n ks : forall den sign iv h M, valid h0 rows -> rel h0 rows h M ->
  sim (rel_det h0 rows) (h_rounds rows n ks h den sign iv) (det_rounds n ks M den sign iv).
Proof.
  induction ks as [|k ks IH]; intros den sign iv h M V H; cbn [h_rounds det_rounds].
  - rewrite (rel_get h0 rows h M) by assumption. eapply sim_bind; [apply sim_eq|]. intros x ? <-. split; [reflexivity|exact H].
  - rewrite (rel_get h0 rows h M) by assumption. eapply sim_bind; [apply sim_eq|]. intros pivot ? <-. destruct (pivot =? 0).
    + rewrite (find_row_sim h0 rows k _ iv h M V H). eapply sim_bind; [apply sim_eq|]. intros iv' ? <-. destruct iv' as [i|]; [|reflexivity].
      destruct (i =? n - 1); [split; [reflexivity|exact H]|].
      eapply sim_bind; [apply swap_sim; eassumption|]. intros h1 M1 H1. cbv zeta. rewrite (rel_get h0 rows h1 M1) by assumption.
      eapply sim_bind; [apply sim_eq|]. intros p ? <-. eapply sim_bind; [apply eliminate_sim; eassumption|]. intros h2 M2 H2. apply IH; assumption.
    + eapply sim_bind; [apply eliminate_sim; eassumption|]. intros h2 M2 H2. apply IH; assumption.
Qed.

(** ** New objects *)
Lemma alloc_ok h L : let '(h', rows) := alloc h L in
  valid h' rows /\ read h' rows = L /\ length h' = (length h + length L)%nat /\ (forall r, In r rows -> Z.of_nat (length h) <= r) /\
  (forall r, 0 <= r < Z.of_nat (length h) -> row_at h' r = row_at h r).
Proof.
  unfold alloc. set (n := Z.of_nat (length h)).
  assert (Hl : length (h ++ L) = (length h + length L)%nat) by apply app_length.
  split; [split; [apply zrange_NoDup|intros r Hr; apply zrange_In in Hr; lia]|]. split; [|split; [exact Hl|split]].
  - unfold read. apply nth_ext with (d := row_at (h ++ L) n) (d' := []); [rewrite map_length, zrange_length; lia|]. intros k Hk.
    rewrite map_length, zrange_length in Hk. rewrite map_nth, zrange_nth by lia. unfold row_at. rewrite app_nth2 by lia. f_equal. lia.
  - intros r Hr. apply zrange_In in Hr. lia.
  - intros r Hr. unfold row_at. apply app_nth1. lia.
Qed.

(** An object as it is made: its attributes fit its rows. *)
Definition fits (h : store) (o : object) (M : matrix) : Prop :=
  valid h (rows_of o) /\ read h (rows_of o) = M /\ nr_of o = nrows M /\ nc_of o = ncols M /\ M <> [].

Lemma new_object_ok h rows : valid h rows -> sim (fun o M => rows_of o = rows /\ fits h o M /\ M = read h rows) (new_object h rows) (new_matrix (read h rows)).
Proof.
  intros V. pose proof V as (N & B). unfold new_object, new_matrix. destruct rows as [|r rows]; [reflexivity|].
  rewrite (pyget_nth (r :: rows) 0 0) by (cbn [length]; lia). cbn [bind Z.to_nat nth]. rewrite pyget_row by (apply B; left; reflexivity). cbn [bind].
  cbn [read map sim]. split; [reflexivity|]. split; [|reflexivity]. split; [exact V|]. cbn [rows_of nr_of nc_of fst snd]. split; [reflexivity|].
  unfold nrows, ncols. cbn [hd length]. rewrite map_length. repeat split; discriminate.
Qed.

(** The result of an operation that makes a matrix: the old rows are as before, and the new object has rows of its own. *)
Definition fresh (h : store) (x : store * object) (M : matrix) : Prop :=
  let '(h', o) := x in fits h' o M /\ (length h <= length h')%nat /\ (forall r, 0 <= r < Z.of_nat (length h) -> row_at h' r = row_at h r) /\
  (forall r, In r (rows_of o) -> Z.of_nat (length h) <= r).

Lemma alloc_fresh h L : sim (fresh h) (let '(h', rows) := alloc h L in do o <- new_object h' rows; Ret (h', o)) (new_matrix L).
Proof.
  pose proof (alloc_ok h L) as A. destruct (alloc h L) as (h' & rows). destruct A as (V & R & Hl & F & K).
  pose proof (new_object_ok h' rows V) as O. rewrite R in O. destruct (new_object h' rows) as [o|e|], (new_matrix L) as [M|e'|]; cbn [sim bind] in *; auto.
  destruct O as (Er & Hf & ->). split; [exact Hf|]. split; [lia|]. split; [exact K|]. rewrite Er. exact F.
Qed.

Lemma hbuild_sim h r c r' c' f g :
  (forall h1 rows, length h1 = (length h + Z.to_nat r)%nat -> (forall x, 0 <= x < Z.of_nat (length h) -> row_at h1 x = row_at h x) -> (forall x, In x rows -> Z.of_nat (length h) <= x) ->
     forall h2 M i j, rel h1 rows h2 M -> f h2 i j = g i j) ->
  sim (fresh h) (hbuild h r c r' c' f) (do R <- fill r' c' g (zero_matrix r c); new_matrix R).
Proof.
  intros Hf. unfold hbuild. pose proof (alloc_ok h (zero_matrix r c)) as A. destruct (alloc h (zero_matrix r c)) as (h1 & rows). destruct A as (V & R & Hl & F & K).
  assert (Hl' : length h1 = (length h + Z.to_nat r)%nat) by (rewrite Hl; unfold zero_matrix; rewrite repeat_length; reflexivity).
  eapply sim_bind; [apply (hfill_sim h1 rows r' c' f g h1 (zero_matrix r c) V); [split; [apply frame_refl|exact R]|]|].
  - intros h2 M i j H2. eapply Hf; eassumption.
  - intros h2 M (F2 & R2). pose proof (new_object_ok h2 rows (frame_valid _ _ _ _ F2 V)) as O. rewrite R2 in O.
    destruct (new_object h2 rows) as [o|e|], (new_matrix M) as [M'|e'|]; cbn [sim bind] in *; auto. destruct O as (Er & Hfit & ->).
    destruct F2 as (L2 & F2 & _). split; [exact Hfit|]. split; [lia|]. split; [|rewrite Er; exact F].
    intros x Hx. rewrite F2; [apply K, Hx|lia|]. intros X. apply F in X. lia.
Qed.

(** Reading an operand during the construction of the result. *)
Lemma operand_get h a A h1 rows h2 M i j n : fits h a A -> length h1 = (length h + n)%nat -> (forall x, 0 <= x < Z.of_nat (length h) -> row_at h1 x = row_at h x) ->
  (forall x, In x rows -> Z.of_nat (length h) <= x) -> rel h1 rows h2 M -> hget h2 (rows_of a) i j = mget A i j.
Proof.
  intros (V & R & _) Hl K F (F2 & _). assert (V1 : valid h1 (rows_of a)) by (destruct V as (N & V); split; [exact N|]; intros x Hx; apply V in Hx; lia).
  rewrite hget_read by (eapply frame_valid; eassumption). f_equal. rewrite (frame_read _ _ _ _ F2 V1).
  - rewrite <- R. apply map_ext_in. intros x Hx. apply K. apply V, Hx.
  - intros x Hx X. apply F in X. destruct V as (_ & V). apply V in Hx. lia.
Qed.
