(** * Proofs about alphametics.solve *)
From Coq Require Import ZArith List Bool Lia Permutation Sorting.Sorted.
From Verif Require Import Base Py Dict Lists2 Trav_Model Trav_Proofs Kor_Model Kor_Proofs Graph_Model Graph_Proofs2 Alpha_Spec Alpha_Model.
Import ListNotations.
Open Scope Z_scope.

(** ** Values of words *)
Lemma value_snoc s w c : value s (w ++ [c]) = 10 * value s w + s c.
Proof. unfold value. rewrite fold_left_app. reflexivity. Qed.

Lemma value_ext s s' w : (forall c, In c w -> s c = s' c) -> value s w = value s' w.
Proof.
  induction w as [|c w IH] using rev_ind; intros H; [reflexivity|]. rewrite !value_snoc, IH, (H c); [reflexivity|apply in_app_iff; right; left; reflexivity|].
  intros x I. apply H, in_app_iff. left; exact I.
Qed.

Lemma value_inj s s' w : (forall c, In c w -> 0 <= s c <= 9 /\ 0 <= s' c <= 9) -> value s w = value s' w ->
  forall c, In c w -> s c = s' c.
Proof.
  induction w as [|x w IH] using rev_ind; intros H E c I; [destruct I|]. rewrite !value_snoc in E.
  pose proof (H x ltac:(apply in_app_iff; right; left; reflexivity)) as Hx.
  assert (value s w = value s' w /\ s x = s' x) as (E1 & E2) by lia.
  apply in_app_iff in I. destruct I as [I|[<-|[]]]; [|exact E2]. apply IH; [|exact E1|exact I]. intros y Iy. apply H, in_app_iff. left; exact Iy.
Qed.

Lemma word_to_num_ok m s w : w <> [] -> (forall c, In c w -> dget m c = Some (s c)) -> word_to_num m w = Ret (value s w).
Proof.
  intros N H. unfold word_to_num. destruct w as [|x w]; [contradiction|]. unfold value.
  rewrite (foldM_ret _ (fun a c => 10 * a + s c)); [reflexivity|]. intros a c I. unfold dgetM. rewrite (H c I). reflexivity.
Qed.

(** ** The value is linear *)
Definition ind (c x : Z) : Z := if x =? c then 1 else 0.
Definition total (s : Z -> Z) (ws : list (list Z)) : Z := zsum (map (value s) ws).

Lemma zsum_ind s cs x : NoDup cs -> In x cs -> zsum (map (fun c => s c * ind c x) cs) = s x.
Proof.
  intros N I. induction N as [|c cs Nc N IH]; [destruct I|]. cbn [map]. rewrite zsum_cons. unfold ind at 1. destruct (Z.eqb_spec x c) as [->|Nx].
  - assert (zsum (map (fun c0 => s c0 * ind c0 c) cs) = 0) as ->; [|lia].
    clear I IH N. induction cs as [|d cs IH]; [reflexivity|]. cbn [map]. rewrite zsum_cons, IH by (intros K; apply Nc; right; exact K).
    unfold ind. destruct (Z.eqb_spec c d) as [->|]; [exfalso; apply Nc; left; reflexivity|lia].
  - destruct I as [->|I]; [contradiction|]. rewrite (IH I). lia.
Qed.

Lemma value_linear s cs w : NoDup cs -> incl w cs -> value s w = zsum (map (fun c => s c * value (ind c) w) cs).
Proof.
  intros N. induction w as [|x w IH] using rev_ind; intros I.
  - unfold value. cbn. induction cs as [|c cs IHc]; [reflexivity|]. cbn [map]. rewrite zsum_cons, Z.mul_0_r. apply IHc; [inversion N; assumption|intros y []].
  - rewrite value_snoc, IH by (intros y Iy; apply I, in_app_iff; left; exact Iy).
    rewrite <- (zsum_ind s cs x N) by (apply I, in_app_iff; right; left; reflexivity).
    clear. induction cs as [|c cs IH]; [reflexivity|]. cbn [map]. rewrite !zsum_cons, value_snoc, <- IH. lia.
Qed.

Lemma zsum_map_swap {A} (f : A -> Z -> Z) (ws : list A) cs :
  zsum (map (fun w => zsum (map (f w) cs)) ws) = zsum (map (fun c => zsum (map (fun w => f w c) ws)) cs).
Proof.
  induction ws as [|w ws IH]; cbn [map].
  - cbn. induction cs as [|c cs IHc]; [reflexivity|]. cbn [map]. rewrite zsum_cons, <- IHc. reflexivity.
  - rewrite zsum_cons, IH. clear IH. induction cs as [|c cs IHc]; [reflexivity|]. cbn [map]. rewrite !zsum_cons, <- IHc. lia.
Qed.

Lemma total_linear s cs ws : NoDup cs -> (forall w, In w ws -> incl w cs) ->
  total s ws = zsum (map (fun c => s c * total (ind c) ws) cs).
Proof.
  intros N H. unfold total. rewrite (map_ext_in (value s) (fun w => zsum (map (fun c => s c * value (ind c) w) cs))) by (intros w I; apply value_linear; [exact N|exact (H w I)]).
  rewrite (zsum_map_swap (fun w c => s c * value (ind c) w)). f_equal. apply map_ext. intros c.
  clear. induction ws as [|w ws IH]; cbn [map]; [cbn; lia|]. rewrite !zsum_cons, IH. lia.
Qed.

(** ** The preparation *)
Lemma collect_ok words : (forall w, In w words -> w <> []) -> exists cs fs, collect words = Ret (cs, fs) /\ NoDup cs /\
  (forall c, In c cs <-> exists w, In w words /\ In c w) /\ (forall c, In c fs <-> exists w, In (c :: w) words).
Proof.
  intros H. unfold collect.
  destruct (foldM_inv (fun '(cs, fs) w => match w with [] => Raise IndexError | c :: _ => Ret (fold_left set_add w cs, set_add fs c) end)
    (fun pre st => NoDup (fst st) /\ (forall c, In c (fst st) <-> exists w, In w pre /\ In c w) /\ (forall c, In c (snd st) <-> exists w, In (c :: w) pre)) words ([], []))
    as ((cs & fs) & E & A & B & C).
  - cbn [fst snd]. split; [apply NoDup_nil|]. split; intros c; (split; [intros []|]); [intros (w & [] & _)|intros (w & [])].
  - intros pre w post (cs, fs) E (A & B & C). cbn [fst snd] in *. pose proof (H w ltac:(rewrite E; apply in_app_iff; right; left; reflexivity)) as Nw. destruct w as [|c w]; [contradiction|].
    exists (fold_left set_add (c :: w) cs, set_add fs c). split; [reflexivity|]. cbn [fst snd].
    assert (G : forall l a, NoDup a -> NoDup (fold_left set_add l a) /\ forall x, In x (fold_left set_add l a) <-> In x a \/ In x l).
    { clear. induction l as [|y l IH]; intros a N; cbn [fold_left]; [split; [exact N|intros x; cbn; tauto]|].
      destruct (IH (set_add a y) (set_add_NoDup a y N)) as (P & Q). split; [exact P|]. intros x. rewrite Q, set_add_In. cbn [In]. split; intuition. }
    destruct (G (c :: w) cs A) as (P & Q). split; [exact P|]. split.
    + intros x. rewrite Q, B. setoid_rewrite in_app_iff. split.
      * intros [(v & I & J)|I]; [exists v; tauto|exists (c :: w); cbn [In]; cbn [In] in I; tauto].
      * intros (v & [I|[<-|[]]] & J); [left; exists v; tauto|right; exact J].
    + intros x. rewrite set_add_In, C. setoid_rewrite in_app_iff. split.
      * intros [(v & I)|K]; [exists v; tauto|subst x; exists w; cbn [In]; tauto].
      * intros (v & [I|[K|[]]]); [left; exists v; exact I|right; congruence].
  - exists cs, fs. cbn [fst snd] in *. auto.
Qed.

Lemma mem_app1 x l c : mem x (l ++ [c]) = (mem x l || (x =? c))%bool.
Proof. unfold mem. rewrite existsb_app. cbn [existsb]. rewrite orb_false_r. reflexivity. Qed.

Lemma dget_zero cs c : In c cs -> dget (map (fun c => (c, 0)) cs) c = Some 0.
Proof. induction cs as [|x cs IH]; cbn [map dget In]; [tauto|]. destruct (Z.eqb_spec x c); [reflexivity|]. intros [K|K]; [congruence|auto]. Qed.

Lemma signatures_ok lhs rhs cs : (forall w, In w (lhs ++ rhs) -> w <> [] /\ incl w cs) -> NoDup cs ->
  exists sg, signatures lhs rhs cs = Ret sg /\ NoDup (dkeys sg) /\
    (forall c v, In (c, v) sg <-> In c cs /\ v = total (ind c) lhs - total (ind c) rhs).
Proof.
  intros H N. unfold signatures.
  match goal with |- context [foldM ?f cs ?s] => destruct (foldM_inv f
     (fun pre st => (forall c, In c cs -> dget (snd st) c = Some 0) /\ NoDup (dkeys (fst st)) /\
        (forall c, dget (fst st) c = if mem c pre then Some (total (ind c) lhs - total (ind c) rhs) else None)) cs s) as ((sg & sm) & E & A & B & C) end.
  - cbn. split; [intros c I; apply dget_zero, I|]. split; [constructor|reflexivity].
  - intros pre c post (sg, sm) Ec (A & B & C). cbn [fst snd] in *.
    assert (W : forall ws, (forall w, In w ws -> w <> [] /\ incl w cs) -> mapM (word_to_num (dset sm c 1)) ws = Ret (map (value (ind c)) ws)).
    { intros ws Hw. apply mapM_ret. intros w I. destruct (Hw w I) as (W1 & W2). apply word_to_num_ok; [exact W1|]. intros x Ix. rewrite dget_dset. unfold ind.
      destruct (Z.eqb_spec c x), (Z.eqb_spec x c); try congruence. apply A, W2, Ix. }
    cbn zeta. rewrite (W lhs) by (intros w I; apply H, in_app_iff; left; exact I). cbn [bind]. rewrite (W rhs) by (intros w I; apply H, in_app_iff; right; exact I). cbn [bind].
    eexists. split; [reflexivity|]. cbn [fst snd]. split.
    + intros x I. rewrite !dget_dset. destruct (Z.eqb_spec c x); [reflexivity|apply A, I].
    + split; [apply dset_NoDup, B|]. intros x. rewrite dget_dset, (mem_app1 x pre c), C.
      destruct (Z.eqb_spec c x) as [->|Nx]; [rewrite Z.eqb_refl, orb_true_r; reflexivity|]. destruct (Z.eqb_spec x c); [congruence|]. rewrite orb_false_r. reflexivity.
  - exists sg. rewrite E. cbn [bind fst snd] in *. split; [reflexivity|]. split; [exact B|]. intros c v. split.
    + intros I. apply (dget_In _ _ _ B) in I. rewrite C in I. destruct (mem c cs) eqn:M; [|discriminate]. apply mem_In in M. split; [exact M|congruence].
    + intros (I & ->). apply dget_Some_In. rewrite C. apply mem_In in I. rewrite I. reflexivity.
Qed.
