(** * Leftist heaps of values of any type, and cheriton_tarjan with them *)
From Coq Require Import ZArith List Lia Bool Permutation Sorted.
From Verif Require Import Base Py Dict UF_Model Graph_Model Paths_Model MST_Model Cher_Model Heapq_Spec Heapq_Proofs Lft_Model.
Import ListNotations.
Open Scope Z_scope.

Section Heap.
  Context {A : Type} (ltb : A -> A -> bool) (less : A -> A -> Prop).
  Hypothesis D : decides ltb less.
  Hypothesis L : linear less.

  Fixpoint contents (t : tnode A) : list A := match t with TNone => [] | TNode v _ l r => v :: contents l ++ contents r end.
  Fixpoint heaped (t : tnode A) : Prop :=
    match t with TNone => True | TNode v _ l r => (forall y, In y (contents l ++ contents r) -> ~ less y v) /\ heaped l /\ heaped r end.

  Lemma contents_size t : length (contents t) = tsize t.
  Proof using. induction t as [|v k l IHl r IHr]; [reflexivity|]. cbn. rewrite app_length. lia. Qed.
  Lemma contents_nil t : contents t = [] -> t = TNone.
  Proof using. destruct t; [reflexivity|discriminate]. Qed.

  Lemma tattach_ok v l c : heaped l -> heaped c -> (forall y, In y (contents l ++ contents c) -> ~ less y v) ->
    heaped (tattach v l c) /\ Permutation (contents (tattach v l c)) (v :: contents l ++ contents c).
  Proof using.
    intros Hl Hc H. destruct l as [|vl rl ll lr].
    - cbn [tattach contents heaped app] in *. rewrite app_nil_r. auto.
    - destruct c as [|vc rc cl cr]; [cbn [tattach]; split; [split; [exact H|split; assumption]|reflexivity]|].
      unfold tattach. set (l := TNode vl rl ll lr) in *. set (c := TNode vc rc cl cr) in *. clearbody l c. destruct (rc <=? rl).
      + split; [split; [exact H|split; assumption]|reflexivity].
      + split; [split; [|split; assumption]|]; [|cbn; constructor; apply Permutation_app_comm].
        intros y I. apply H. apply in_app_or in I. apply in_or_app. tauto.
  Qed.

  Lemma tmerge_fuel_ok : forall fuel a b, (tsize a + tsize b < fuel)%nat -> heaped a -> heaped b ->
    heaped (tmerge_fuel ltb fuel a b) /\ Permutation (contents (tmerge_fuel ltb fuel a b)) (contents a ++ contents b).
  Proof using D L.
    destruct L as (L0 & L1 & L2). induction fuel as [|f IH]; intros a b Hf Ha Hb; [lia|]. cbn [tmerge_fuel].
    destruct a as [|va ka la ra]; [split; [exact Hb|reflexivity]|]. destruct b as [|vb kb lb rb]; [split; [exact Ha|rewrite app_nil_r; reflexivity]|].
    (* the rest of the smaller one is merged with the other *)
    assert (M : forall r b', (tsize r + tsize b' < f)%nat -> heaped r -> heaped b' ->
      let c := match r with TNone => b' | _ => tmerge_fuel ltb f r b' end in heaped c /\ Permutation (contents c) (contents r ++ contents b')).
    { intros r b' Hs Hr Hb'. destruct r as [|vr kr lr rr]; [split; [exact Hb'|reflexivity]|]. apply IH; assumption. }
    pose proof Ha as (Ha1 & Ha2 & Ha3). pose proof Hb as (Hb1 & Hb2 & Hb3). destruct (ltb vb va) eqn:C.
    - destruct (M rb (TNode va ka la ra)) as (M1 & M2); [cbn [tsize] in *; lia|assumption|assumption|]. set (c := match rb with TNone => _ | _ => _ end) in *. clearbody c.
      apply D in C. destruct (tattach_ok vb lb c Hb2 M1) as (T1 & T2).
      + intros y I. apply in_app_or in I as [I|I]; [apply Hb1, in_or_app; left; exact I|]. apply (Permutation_in _ M2), in_app_or in I as [I|I]; [apply Hb1, in_or_app; right; exact I|].
        destruct I as [<-|I]; [apply L0, C|]. apply (L2 _ va); [apply Ha1, I|apply L0, C].
      + split; [exact T1|]. rewrite T2, M2. set (xa := contents (TNode va ka la ra)). cbn [contents]. rewrite <- (Permutation_middle xa). constructor. rewrite app_assoc. apply Permutation_app_comm.
    - destruct (M ra (TNode vb kb lb rb)) as (M1 & M2); [cbn [tsize] in *; lia|assumption|assumption|]. set (c := match ra with TNone => _ | _ => _ end) in *. clearbody c.
      assert (N : ~ less vb va) by (intros K; apply D in K; congruence). destruct (tattach_ok va la c Ha2 M1) as (T1 & T2).
      + intros y I. apply in_app_or in I as [I|I]; [apply Ha1, in_or_app; left; exact I|]. apply (Permutation_in _ M2), in_app_or in I as [I|I]; [apply Ha1, in_or_app; right; exact I|].
        destruct I as [<-|I]; [exact N|]. apply (L2 _ vb); [apply Hb1, I|exact N].
      + split; [exact T1|]. rewrite T2, M2. set (xb := contents (TNode vb kb lb rb)). cbn [contents app]. constructor. rewrite app_assoc. reflexivity.
  Qed.
  Lemma tmerge_ok a b : heaped a -> heaped b -> heaped (tmerge ltb a b) /\ Permutation (contents (tmerge ltb a b)) (contents a ++ contents b).
  Proof using D L. apply tmerge_fuel_ok. lia. Qed.

  Definition holds (t : tnode A) (l : list A) : Prop := heaped t /\ Permutation (contents t) l.

  Lemma tbuild_ok : forall fuel nodes last, (1 <= length nodes)%nat -> (length nodes <= fuel)%nat -> Forall heaped nodes ->
    (length nodes = 1%nat -> match last with Some t => nodes = [t] | None => True end) ->
    match tbuild ltb fuel nodes last with
    | None => length nodes = 1%nat /\ last = None
    | Some t => holds t (flat_map contents nodes)
    end.
  Proof using D L.
    induction fuel as [|f IH]; intros nodes last Hn Hf Hh Hl; [lia|]. cbn [tbuild]. destruct nodes as [|a [|b rest]]; [cbn in Hn; lia| |].
    - specialize (Hl eq_refl). destruct last as [t|]; [|split; reflexivity]. injection Hl as <-. inversion Hh. subst. split; [assumption|]. cbn. rewrite app_nil_r. reflexivity.
    - inversion Hh as [|? ? Ha Hh']. inversion Hh' as [|? ? Hb Hr]. subst. cbv zeta. destruct (tmerge_ok a b Ha Hb) as (M1 & M2).
      specialize (IH (rest ++ [tmerge ltb a b]) (Some (tmerge ltb a b))). rewrite app_length in IH. cbn [length] in *.
      assert (R : match tbuild ltb f (rest ++ [tmerge ltb a b]) (Some (tmerge ltb a b)) with
                  | Some t => holds t (flat_map contents (rest ++ [tmerge ltb a b])) | None => (length rest + 1)%nat = 1%nat /\ Some (tmerge ltb a b) = None end).
      { apply IH; [lia|lia|apply Forall_app; split; [exact Hr|constructor; [exact M1|constructor]]|]. intros E. destruct rest; [reflexivity|cbn in E; lia]. }
      destruct (tbuild _ _ _ _) as [t|]; [|destruct R; discriminate]. destruct R as (R1 & R2). split; [exact R1|]. rewrite R2, flat_map_app. cbn [flat_map]. rewrite app_nil_r, M2. rewrite Permutation_app_comm, <- app_assoc. reflexivity.
  Qed.

  Lemma th_init_ok values : match th_init ltb values with
    | Ret t => (2 <= length values)%nat /\ holds t values
    | Raise e => e = UnboundLocalError /\ (length values < 2)%nat
    | Diverge => False
    end.
  Proof using D L.
    unfold th_init. destruct values as [|a [|b rest]]; [cbn; split; [reflexivity|lia]|cbn; split; [reflexivity|lia]|].
    set (values := a :: b :: rest). pose proof (tbuild_ok (length values) (map (fun v => TNode v 0 TNone TNone) values) None) as R. rewrite map_length in R.
    destruct (tbuild _ _ _ _) as [t|].
    - destruct R as (R1 & R2); [unfold values; cbn; lia|lia| |exact (fun _ => I)|].
      + apply Forall_forall. intros t' I. apply in_map_iff in I as (v & <- & _). cbn. tauto.
      + split; [unfold values; cbn; lia|]. split; [exact R1|]. rewrite R2. clear. induction values as [|v l IH]; [reflexivity|]. cbn. constructor. exact IH.
    - destruct R as (R1 & _); [unfold values; cbn; lia|lia| |exact (fun _ => I)|].
      + apply Forall_forall. intros t' I. apply in_map_iff in I as (v & <- & _). cbn. tauto.
      + unfold values in R1. cbn in R1. lia.
  Qed.

  (** The root is what [pop_min] takes out. *)
  Lemma holds_pop t x rest m r : holds t (x :: rest) -> pop_min ltb x rest = (m, r) ->
    exists t', th_delete_min ltb t = (Some m, t') /\ holds t' r.
  Proof using D L.
    intros (Hh & P) E. destruct (pop_min_least ltb less D L _ _ _ _ E) as (P1 & M1). destruct L as (L0 & L1 & L2). destruct t as [|v k tl tr]; [exfalso; exact (Permutation_nil_cons P)|]. cbn [th_delete_min]. destruct Hh as (H1 & H2 & H3). cbn [contents] in P.
    assert (v = m) as ->.
    { apply L1.
      - apply M1. eapply Permutation_in; [exact P|left; reflexivity].
      - assert (I : In m (v :: contents tl ++ contents tr)) by (eapply Permutation_in; [symmetry; exact P|]; eapply Permutation_in; [symmetry; exact P1|]; left; reflexivity).
        destruct I as [<-|I]; [intros K; exact (L0 _ _ K K)|apply H1, I]. }
    destruct (tmerge_ok tl tr H2 H3) as (T1 & T2). exists (tmerge ltb tl tr). split; [reflexivity|]. split; [exact T1|]. rewrite T2. apply (Permutation_cons_inv (a := m)). rewrite P. exact P1.
  Qed.

  Lemma holds_nil t : holds t [] -> t = TNone.
  Proof using. intros (_ & P). apply contents_nil, Permutation_nil. symmetry. exact P. Qed.
  Lemma holds_size t l : holds t l -> tsize t = length l.
  Proof using. intros (_ & P). rewrite <- contents_size. apply Permutation_length, P. Qed.
  Lemma holds_merge a b l k : holds a l -> holds b k -> holds (tmerge ltb a b) (l ++ k).
  Proof using D L. intros (A1 & A2) (B1 & B2). destruct (tmerge_ok a b A1 B1) as (T1 & T2). split; [exact T1|]. rewrite T2, A2, B2. reflexivity. Qed.

  (** Draining a heap. *)
  Fixpoint drain (n : nat) (t : tnode A) : list A :=
    match n with O => [] | S n => match th_delete_min ltb t with (Some v, t) => v :: drain n t | (None, _) => [] end end.
  Lemma drain_ok : forall n t l, holds t l -> length l = n -> Permutation (drain n t) l /\ StronglySorted (fun x y => ~ less y x) (drain n t).
  Proof using D L.
    induction n as [|n IH]; intros t l H Hn; [destruct l; [split; [reflexivity|constructor]|discriminate]|]. destruct l as [|x rest]; [discriminate|].
    destruct (pop_min ltb x rest) as (m, r) eqn:Ep. destruct (pop_min_least ltb less D L _ _ _ _ Ep) as (P & M). destruct (holds_pop _ _ _ _ _ H Ep) as (t' & Ed & Ht). cbn [drain]. rewrite Ed.
    destruct (IH t' r Ht) as (I1 & I2); [apply Permutation_length in P; cbn in P, Hn; lia|]. split; [rewrite P; constructor; exact I1|]. constructor; [exact I2|]. apply Forall_forall. intros y Iy. apply M. eapply Permutation_in; [symmetry; exact P|right]. eapply Permutation_in; [exact I1|exact Iy].
  Qed.
End Heap.

(** ** Dictionaries of heaps *)
Notation hold3 := (holds less3).
Definition pq_rel (P : list (Z * archeap)) (R : list (Z * list (Z * Z * Z))) : Prop := Forall2 (fun x y => fst x = fst y /\ hold3 (snd x) (snd y)) P R.
Lemma pq_keys P R : pq_rel P R -> dkeys P = dkeys R.
Proof. induction 1 as [|x y P R (E & _) _ IH]; [reflexivity|]. cbn. unfold dkeys in IH. congruence. Qed.
Lemma pq_get P R k : pq_rel P R -> match dget P k, dget R k with Some t, Some l => hold3 t l | None, None => True | _, _ => False end.
Proof. induction 1 as [|(a, t) (b, l) P R (E & H) _ IH]; [exact I|]. cbn [fst snd dget] in *. subst b. destruct (a =? k); [exact H|exact IH]. Qed.
Lemma pq_getM P R k : pq_rel P R -> orel hold3 (dgetM P k) (dgetM R k).
Proof. intros H. pose proof (pq_get P R k H) as K. unfold dgetM. destruct (dget P k), (dget R k); cbn; try contradiction; [exact K|reflexivity]. Qed.
Lemma pq_set P R k t l : pq_rel P R -> hold3 t l -> pq_rel (dset P k t) (dset R k l).
Proof.
  intros H Ht. induction H as [|(a, u) (b, m) P R (E & H1) H IH]; cbn [dset]; [constructor; [split; [reflexivity|exact Ht]|constructor]|]. cbn [fst snd] in E, H1. subst b.
  destruct (a =? k); constructor; try assumption; split; try reflexivity; assumption.
Qed.
Lemma pq_del P R k : pq_rel P R -> pq_rel (ddel P k) (ddel R k).
Proof.
  intros H. induction H as [|(a, u) (b, m) P R (E & H1) H IH]; cbn [ddel]; [constructor|]. cbn [fst snd] in E, H1. subst b. destruct (a =? k); [exact H|]. constructor; [split; [reflexivity|exact H1]|exact IH].
Qed.

Lemma lct_heaps_same g : orel pq_rel (lct_heaps g) (ct_heaps g).
Proof.
  unfold lct_heaps, ct_heaps. apply foldM_rel; [|constructor]. intros P R u H. destruct (g_adj g u) as [row|e|]; cbn [bind]; [|reflexivity|exact I].
  set (l := map _ row). pose proof (th_init_ok warc_ltb less3 warc_less less3_linear l) as T. unfold heap_of. destruct (th_init warc_ltb l) as [t|e|]; [| |contradiction].
  - destruct T as (T1 & T2). destruct (Nat.ltb_spec (length l) 2); [lia|]. cbn [bind orel]. apply pq_set; assumption.
  - destruct T as (-> & T2). destruct (Nat.ltb_spec (length l) 2); [|lia]. reflexivity.
Qed.

Lemma lct_pop_same Tu : forall fuel t h X, hold3 t h ->
  orel (fun x y => fst (fst x) = fst (fst y) /\ hold3 (snd (fst x)) (snd (fst y)) /\ snd x = snd y) (lct_pop fuel Tu t X) (ct_pop fuel Tu h X).
Proof.
  induction fuel as [|f IH]; intros t h X H.
  - destruct h as [|x rest]; [apply holds_nil in H; subst t; reflexivity|]. destruct (pop_min warc_ltb x rest) as (m, r) eqn:Ep. destruct (holds_pop _ _ warc_less less3_linear _ _ _ _ _ H Ep) as (t' & Ed & _). cbn [lct_pop ct_pop]. rewrite Ed. destruct m as [[w a] b]. exact I.
  - destruct h as [|x rest]; [apply holds_nil in H; subst t; reflexivity|]. destruct (pop_min warc_ltb x rest) as [[[w a] b] r] eqn:Ep. destruct (holds_pop _ _ warc_less less3_linear _ _ _ _ _ H Ep) as (t' & Ed & Ht). cbn [lct_pop ct_pop]. rewrite Ed, Ep.
    destruct (uf_find X a) as [(Tx, X1)|e|]; cbn [bind]; [|reflexivity|exact I]. destruct (uf_find X1 b) as [(Ty, X2)|e|]; cbn [bind]; [|reflexivity|exact I].
    destruct (Tx =? Ty); [apply IH, Ht|]. cbn. auto.
Qed.

Lemma lct_loop_same pick : forall need P R X tree, pq_rel P R -> lct_loop pick need P X tree = ct_loop pick need R X tree.
Proof.
  induction need as [|need IH]; intros P R X tree H; [reflexivity|]. cbn [lct_loop ct_loop]. rewrite (pq_keys P R H). destruct (dkeys R) as [|k0 ks]; [reflexivity|].
  destruct (uf_find X (pick tree (k0 :: ks))) as [(Tu, X1)|e|]; cbn [bind]; try reflexivity.
  pose proof (pq_getM P R Tu H) as G. destruct (dgetM P Tu) as [t|e|], (dgetM R Tu) as [h|e'|]; cbn in G; try contradiction; cbn [bind]; [|congruence|reflexivity].
  rewrite (holds_size _ _ _ G). pose proof (lct_pop_same Tu (length h) t h X1 G) as Pp.
  destruct (lct_pop (length h) Tu t X1) as [[[[[x y] Tv] t1] X2]|e|], (ct_pop (length h) Tu h X1) as [[[[[x' y'] Tv'] h1] X2']|e'|]; cbn in Pp; try contradiction; cbn [bind]; [|congruence|reflexivity].
  destruct Pp as (E1 & Ht & E2). injection E1 as <- <- <-. subst X2'. destruct (uf_union X2 Tu Tv) as [X3|e|]; cbn [bind]; try reflexivity. destruct (uf_find X3 Tu) as [(u, X4)|e|]; cbn [bind]; try reflexivity.
  pose proof (pq_set P R Tu t1 h1 H Ht) as H1. destruct (if negb (u =? Tu) then (u, Tu) else (Tu, Tv)) as (Ta, Tb).
  pose proof (pq_getM _ _ Ta H1) as G1. destruct (dgetM (dset P Tu t1) Ta) as [ta|e|], (dgetM (dset R Tu h1) Ta) as [ha|e'|]; cbn in G1; try contradiction; cbn [bind]; [|congruence|reflexivity].
  pose proof (pq_getM _ _ Tb H1) as G2. destruct (dgetM (dset P Tu t1) Tb) as [tb|e|], (dgetM (dset R Tu h1) Tb) as [hb|e'|]; cbn in G2; try contradiction; cbn [bind]; [|congruence|reflexivity].
  apply IH, pq_del, pq_set; [exact H1|]. apply holds_merge; [exact warc_less|exact less3_linear|exact G1|exact G2].
Qed.

Lemma lct_same pick g : lct_cheriton_tarjan pick g = cheriton_tarjan pick g.
Proof.
  unfold lct_cheriton_tarjan, cheriton_tarjan. pose proof (lct_heaps_same g) as H. destruct (lct_heaps g) as [P|e|], (ct_heaps g) as [R|e'|]; cbn in H; try contradiction; cbn [bind]; [|congruence|reflexivity].
  rewrite (lct_loop_same pick _ P R _ _ H). reflexivity.
Qed.
