(** * Proofs about Steiner trees: the growth of a tree along shortest paths *)
From Coq Require Import ZArith List Lia Bool Permutation Sorting.Sorted.
From Verif Require Import Base Py Dict Lists Lists2 Graph_Model Graph_Spec Graph_Proofs Graph_Proofs2 Graph_Props UF_Model UF_Spec UF_Proofs Trav_Model Trav_Spec Trav_Proofs Trav_Proofs2
  Paths_Model Paths_Spec Paths_Proofs MST_Model MST_Spec MST_Proofs MST_Proofs2 MST_Props Color_Model Kor_Model Kor_Proofs Stein_Model Stein_Spec Stein_Proofs Stein_Proofs2 Stein_Proofs3 Stein_Proofs4.
Import ListNotations.
Open Scope Z_scope.

(** ** The exchange *)
Lemma exchange R B X root u : In root X -> In root R -> In u R -> ~ In u X -> (forall x y, In x R -> In y R -> linked (B ++ map (pair root) X) x y) ->
  exists a b B', Permutation B ((a, b) :: B') /\ ((In a X /\ ~ In b X) \/ (~ In a X /\ In b X)) /\
    forall x y, In x R -> In y R -> linked (B' ++ map (pair root) (u :: X)) x y.
Proof.
  intros IX Ir Iu Nu Lk. set (S := fun x => if in_dec Z.eq_dec x X then true else false).
  set (cr := fun e : Z * Z => xorb (S (fst e)) (S (snd e))).
  assert (PB := filter_split cr B). set (Cr := filter cr B) in *. set (NC := filter (fun e => negb (cr e)) B) in *.
  assert (Nl : ~ linked (NC ++ map (pair root) X) root u).
  { intros L. destruct (crossing _ S root u L) as (a & b & I & D).
    { unfold S. destruct (in_dec Z.eq_dec root X); [|contradiction]. destruct (in_dec Z.eq_dec u X); [contradiction|discriminate]. }
    apply D. apply in_app_iff in I as [I|I].
    - apply filter_In in I as (_ & I). apply negb_true_iff in I. unfold cr in I. cbn [fst snd] in I. destruct (S a), (S b); cbn in I; congruence.
    - apply in_map_iff in I as (x & E & I). injection E as <- <-. unfold S. destruct (in_dec Z.eq_dec root X); [|contradiction]. destruct (in_dec Z.eq_dec x X); [reflexivity|contradiction]. }
  assert (L : linked (Cr ++ NC ++ map (pair root) X) root u).
  { rewrite app_assoc. apply (linked_sub (B ++ map (pair root) X)); [|apply Lk; assumption].
    intros e He. apply in_app_iff in He as [He|He]; apply in_app_iff; [left; apply (Permutation_in _ PB), He|right; exact He]. }
  destruct (first_link (NC ++ map (pair root) X) root u Cr Nl L) as (C1 & (a, b) & C2 & EC & Nf & Lf).
  exists a, b, (C1 ++ C2 ++ NC). split; [|split].
  - rewrite PB, EC, <- app_assoc. cbn [app]. rewrite <- Permutation_middle. reflexivity.
  - assert (I : In (a, b) Cr) by (rewrite EC; apply in_app_iff; right; left; reflexivity). apply filter_In in I as (_ & I). unfold cr, S in I. cbn [fst snd] in I.
    destruct (in_dec Z.eq_dec a X), (in_dec Z.eq_dec b X); cbn in I; try discriminate; auto.
  - assert (Mo : forall x y, linked (C2 ++ NC ++ map (pair root) X) x y -> linked ((C1 ++ C2 ++ NC) ++ map (pair root) (u :: X)) x y).
    { intros x y. apply linked_sub. intros e He. cbn [map]. rewrite !in_app_iff in *. cbn [In]. tauto. }
    assert (Lru : linked ((C1 ++ C2 ++ NC) ++ map (pair root) (u :: X)) root u) by (apply linked_edge, in_app_iff; right; left; reflexivity).
    intros x y Ix Iy. apply (linked_incl (B ++ map (pair root) X)); [|apply Lk; assumption]. intros p q I.
    assert (D : In (p, q) ((C1 ++ C2 ++ NC) ++ map (pair root) (u :: X)) \/ (p, q) = (a, b)).
    { apply in_app_iff in I as [I|I]; [|left; apply in_app_iff; right; right; exact I].
      apply (Permutation_in _ PB) in I. rewrite EC in I. cbn [map]. rewrite !in_app_iff in *. cbn [In] in I. intuition. }
    destruct D as [D|D]; [apply linked_edge, D|]. injection D as -> ->.
    apply linked_cons in Lf as [Lf|[(La & Lb)|(La & Lb)]]; [contradiction| |].
    + eapply linked_trans; [apply linked_sym, Mo, La|]. eapply linked_trans; [exact Lru|]. apply linked_sym, Mo, Lb.
    + eapply linked_trans; [apply Mo, Lb|]. eapply linked_trans; [apply linked_sym, Lru|]. apply Mo, La.
Qed.

Definition wsum (f : Z -> Z -> Z) (L : list (Z * Z)) : Z := fold_right (fun e t => f (fst e) (snd e) + t) 0 L.
Lemma wsum_app f A B : wsum f (A ++ B) = wsum f A + wsum f B.
Proof. induction A as [|e A IH]; [reflexivity|]. cbn [app wsum fold_right]. fold (wsum f (A ++ B)). fold (wsum f A). rewrite IH. lia. Qed.
Lemma wsum_perm f A B : Permutation A B -> wsum f A = wsum f B.
Proof. induction 1 as [|e A B _ IH|a b A|A B C _ IH1 _ IH2]; [reflexivity| | |congruence]; cbn [wsum fold_right]; unfold wsum in *; lia. Qed.
Lemma wsum_pairs f l : wsum f (pairs l) = psum f l.
Proof.
  induction l as [|x l IH]; [reflexivity|]. destruct l as [|y l]; [reflexivity|]. change (pairs (x :: y :: l)) with ((x, y) :: pairs (y :: l)).
  change (psum f (x :: y :: l)) with (f x y + psum f (y :: l)). rewrite <- IH. reflexivity.
Qed.

(** A vertex on a path. *)
Lemma chain_split g prev s v es a : chain prev s v es -> In a (map fst es) -> exists e1 e2, es = e1 ++ e2 /\ chain prev s a e2 /\ forall W, total_weight g e1 W -> wwalk g a v W.
Proof.
  induction 1 as [|v p es E C IH]; [intros []|]. cbn [map fst]. intros [<-|I].
  - exists [(p, v)], es. split; [reflexivity|]. split; [exact C|]. intros W TW. inversion TW as [|? ? w ? W' Hw TW']; subst. inversion TW'; subst.
    replace (w + 0) with (0 + w) by lia. apply wwalk_snoc with p; [constructor|exact Hw].
  - destruct (IH I) as (e1 & e2 & -> & C2 & H). exists ((p, v) :: e1), e2. split; [reflexivity|]. split; [exact C2|].
    intros W TW. inversion TW as [|? ? w ? W' Hw TW']; subst. rewrite Z.add_comm. apply wwalk_snoc with p; [apply H, TW'|exact Hw].
Qed.

(** ** The nearest terminal *)
Section Nearest.
  Context (sp : list (Z * (dists * prevs))) (d : Z -> Z -> Z).

  Lemma nearer_ok u vs : forall st, (forall v, In v vs -> exists r, dget sp u = Some r /\ dget (fst r) v = Some (Some (d u v))) ->
    exists st', foldM (nearer sp u) vs st = Ret st' /\
      (st' = st \/ exists v, In v vs /\ st' = (Some (d u v), Some (u, v))) /\
      (forall y, fst st = Some y -> exists y', fst st' = Some y' /\ y' <= y) /\
      (forall v, In v vs -> exists y', fst st' = Some y' /\ y' <= d u v).
  Proof using Type.
    induction vs as [|v vs IH]; intros st H; [exists st; split; [reflexivity|]; split; [left; reflexivity|]; split; [intros y E; exists y; split; [exact E|lia]|intros v []]|].
    destruct (H v (or_introl eq_refl)) as (r & E1 & E2). cbn [foldM]. unfold nearer at 1.
    replace (dgetM sp u) with (Ret r) by (unfold dgetM; rewrite E1; reflexivity). cbn [bind].
    replace (dgetM (fst r) v) with (Ret (Some (d u v))) by (unfold dgetM; rewrite E2; reflexivity). cbn [bind].
    assert (Hs : forall v, In v vs -> exists r, dget sp u = Some r /\ dget (fst r) v = Some (Some (d u v))) by (intros w Iw; apply H; right; exact Iw).
    destruct (ltx (d u v) (fst st)) eqn:El; cbn [bind].
    - destruct (IH (Some (d u v), Some (u, v)) Hs) as (st' & E & O & M1 & M2). exists st'. split; [exact E|]. cbn [fst] in M1.
      destruct (M1 _ eq_refl) as (y' & Ey & Ly). split; [|split].
      + right. destruct O as [->|(w & Iw & ->)]; [exists v; split; [left; reflexivity|reflexivity]|exists w; split; [right; exact Iw|reflexivity]].
      + intros y Es. exists y'. split; [exact Ey|]. apply ltx_true in El. rewrite Es in El. lia.
      + intros w [<-|Iw]; [exists y'; split; [exact Ey|lia]|apply M2, Iw].
    - destruct (IH st Hs) as (st' & E & O & M1 & M2). exists st'. split; [exact E|]. split; [|split; [exact M1|]].
      + destruct O as [->|(w & Iw & ->)]; [left; reflexivity|right; exists w; split; [right; exact Iw|reflexivity]].
      + apply ltx_false in El as (y & Ey & Ly). destruct (M1 y Ey) as (y' & Ey' & Ly'). intros w [<-|Iw]; [exists y'; split; [exact Ey'|lia]|apply M2, Iw].
  Qed.

  Lemma nearest_all us vs : forall st, (forall u v, In u us -> In v vs -> exists r, dget sp u = Some r /\ dget (fst r) v = Some (Some (d u v))) ->
    exists st', nearest sp us vs st = Ret st' /\
      (st' = st \/ exists u v, In u us /\ In v vs /\ st' = (Some (d u v), Some (u, v))) /\
      (forall y, fst st = Some y -> exists y', fst st' = Some y' /\ y' <= y) /\
      (forall u v, In u us -> In v vs -> exists y', fst st' = Some y' /\ y' <= d u v).
  Proof using Type.
    unfold nearest. induction us as [|u us IH]; intros st H; [exists st; split; [reflexivity|]; split; [left; reflexivity|]; split; [intros y E; exists y; split; [exact E|lia]|intros u v []]|].
    cbn [foldM]. destruct (nearer_ok u vs st) as (st1 & E1 & O1 & A1 & B1); [intros v Iv; apply H; [left; reflexivity|exact Iv]|]. rewrite E1. cbn [bind].
    destruct (IH st1) as (st2 & E2 & O2 & A2 & B2); [intros w v Iw Iv; apply H; [right; exact Iw|exact Iv]|]. exists st2. split; [exact E2|]. split; [|split].
    - destruct O2 as [->|(w & v & Iw & Iv & ->)]; [|right; exists w, v; split; [right; exact Iw|split; [exact Iv|reflexivity]]].
      destruct O1 as [->|(v & Iv & ->)]; [left; reflexivity|right; exists u, v; split; [left; reflexivity|split; [exact Iv|reflexivity]]].
    - intros y E. destruct (A1 y E) as (y1 & F1 & L1). destruct (A2 y1 F1) as (y2 & F2 & L2). exists y2. split; [exact F2|lia].
    - intros w v [<-|Iw] Iv; [|apply B2; assumption]. destruct (B1 v Iv) as (y1 & F1 & L1). destruct (A2 y1 F1) as (y2 & F2 & L2). exists y2. split; [exact F2|lia].
  Qed.

  Lemma nearest_ok us vs mv : us <> [] -> vs <> [] -> (forall u v, In u us -> In v vs -> exists r, dget sp u = Some r /\ dget (fst r) v = Some (Some (d u v))) ->
    exists u v, nearest sp us vs (None, mv) = Ret (Some (d u v), Some (u, v)) /\ In u us /\ In v vs /\ forall u' v', In u' us -> In v' vs -> d u v <= d u' v'.
  Proof using Type.
    intros Nu Nv H. destruct (nearest_all us vs (None, mv) H) as (st' & E & O & _ & M). destruct O as [->|(u & v & Iu & Iv & ->)].
    - exfalso. destruct us as [|u us]; [congruence|]. destruct vs as [|v vs]; [congruence|]. destruct (M u v (or_introl eq_refl) (or_introl eq_refl)) as (y & Ey & _). discriminate.
    - exists u, v. split; [exact E|]. split; [exact Iu|]. split; [exact Iv|]. intros u' v' Iu' Iv'. destruct (M u' v' Iu' Iv') as (y & Ey & L). injection Ey as <-. exact L.
  Qed.
End Nearest.
