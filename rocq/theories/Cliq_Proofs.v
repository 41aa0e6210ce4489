(** * Enumerating maximal cliques: Bron-Kerbosch and Tomita *)
From Coq Require Import ZArith List Lia Bool Permutation.
From Verif Require Import Base Py Dict Gen Lists2 Graph_Model Graph_Spec Graph_Proofs Trav_Model Trav_Proofs Cliq_Model Cliq_Spec.
Import ListNotations.
Open Scope Z_scope.

Lemma inter_In a b x : In x (inter a b) <-> In x a /\ In x b.
Proof. unfold inter. rewrite filter_In, mem_In. reflexivity. Qed.
Lemma diff_In a b x : In x (diff a b) <-> In x a /\ ~ In x b.
Proof. unfold diff. rewrite filter_In, negb_true_iff, mem_false. reflexivity. Qed.
Lemma discard_In a u x : In x (discard a u) <-> In x a /\ x <> u.
Proof. unfold discard. rewrite filter_In, negb_true_iff, Z.eqb_neq. reflexivity. Qed.
Lemma inter_nodup a b : NoDup a -> NoDup (inter a b). Proof. apply NoDup_filter. Qed.
Lemma diff_nodup a b : NoDup a -> NoDup (diff a b). Proof. apply NoDup_filter. Qed.
Lemma discard_nodup a u : NoDup a -> NoDup (discard a u). Proof. apply NoDup_filter. Qed.
Lemma filter_len {A} (f : A -> bool) l : (length (filter f l) <= length l)%nat.
Proof. induction l as [|x l IH]; cbn; [lia|]. destruct (f x); cbn; lia. Qed.
Lemma filter_len_lt {A} (f : A -> bool) l x : In x l -> f x = false -> (length (filter f l) < length l)%nat.
Proof.
  induction l as [|y l IH]; intros H E; [destruct H|]. destruct H as [->|H]; cbn.
  - rewrite E. pose proof (filter_len f l). lia.
  - specialize (IH H E). destruct (f y); cbn; lia.
Qed.
Lemma discard_len a u : In u a -> (length (discard a u) < length a)%nat.
Proof. intros H. apply (filter_len_lt _ a u H). rewrite Z.eqb_refl. reflexivity. Qed.
Lemma inter_len a b : (length (inter a b) <= length a)%nat. Proof. apply filter_len. Qed.

Lemma same_refl c : same_elements c c. Proof. intros x. reflexivity. Qed.
Lemma same_sym c c' : same_elements c c' -> same_elements c' c. Proof. intros H x. symmetry. apply H. Qed.
Lemma same_trans a b c : same_elements a b -> same_elements b c -> same_elements a c.
Proof. intros H H' x. rewrite (H x). apply H'. Qed.

(** ** Listing sets *)
Lemma lo_nil (F : list Z -> Prop) : (forall c, ~ F c) -> lists_once F [].
Proof.
  intros H. split; [intros c []|]. split; [intros c Fc; destruct (H c Fc)|]. intros L1 c L2 c' L3 E. destruct L1; discriminate.
Qed.
Lemma lo_one (F : list Z -> Prop) c : F c -> (forall c', F c' -> same_elements c' c) -> lists_once F [c].
Proof.
  intros Fc H. split; [intros c' [<-|[]]; exact Fc|]. split; [intros c' F'; exists c; split; [left; reflexivity|apply H, F']|].
  intros L1 a L2 a' L3 E. exfalso. apply (f_equal (@length _)) in E. rewrite app_length in E. cbn in E. rewrite app_length in E. cbn in E. lia.
Qed.
Lemma lo_ext (F F' : list Z -> Prop) L : (forall c, F c <-> F' c) -> lists_once F L -> lists_once F' L.
Proof.
  intros H (H1 & H2 & H3). split; [intros c I; apply H, H1, I|]. split; [intros c Fc; apply H2, H, Fc|exact H3].
Qed.
(** Positions of two entries of a concatenation. *)
Lemma two_split {A} (L1 : list A) c L2 c' L3 X Y : X ++ Y = L1 ++ c :: L2 ++ c' :: L3 ->
  (exists M, X = L1 ++ c :: L2 ++ c' :: M) \/ (exists M, Y = M ++ c :: L2 ++ c' :: L3) \/ (In c X /\ In c' Y).
Proof.
  revert L1. induction X as [|x X IH]; intros L1 E; cbn [app] in E.
  - right. left. exists L1. exact E.
  - destruct L1 as [|y L1]; cbn [app] in E.
    + injection E as -> E. clear IH. revert X E. induction L2 as [|z L2 IH2]; intros X E.
      * destruct X as [|w X]; cbn in E.
        -- right. right. split; [left; reflexivity|]. rewrite E. left. reflexivity.
        -- injection E as -> _. left. exists X. reflexivity.
      * destruct X as [|w X]; cbn in E.
        -- right. right. split; [left; reflexivity|]. rewrite E. right. apply in_elt.
        -- injection E as -> E. destruct (IH2 X E) as [(M & HM)|[(M & HM)|[_ I]]].
           ++ left. exists M. cbn in HM. injection HM as ->. reflexivity.
           ++ exfalso. rewrite HM in E. apply (f_equal (@length _)) in E. rewrite !app_length in E. cbn [length] in E.
              rewrite !app_length in E. cbn [length] in E. lia.
           ++ right. right. split; [left; reflexivity|exact I].
    + injection E as -> E. destruct (IH L1 E) as [(M & ->)|[(M & HM)|[I1 I2]]].
      * left. exists M. reflexivity.
      * right. left. exists M. exact HM.
      * right. right. split; [right; exact I1|exact I2].
Qed.
Lemma lo_app (F F1 F2 : list Z -> Prop) X Y : lists_once F1 X -> lists_once F2 Y -> (forall c, F c <-> F1 c \/ F2 c) ->
  (forall c c', F1 c -> F2 c' -> ~ same_elements c c') -> lists_once F (X ++ Y).
Proof.
  intros (A1 & A2 & A3) (B1 & B2 & B3) HF HD. split; [|split].
  - intros c I. apply HF. apply in_app_or in I as [I|I]; auto.
  - intros c Fc. apply HF in Fc as [Fc|Fc]; [destruct (A2 c Fc) as (c' & I & E)|destruct (B2 c Fc) as (c' & I & E)];
      exists c'; (split; [apply in_or_app; auto|exact E]).
  - intros L1 c L2 c' L3 E. destruct (two_split _ _ _ _ _ _ _ E) as [(M & H)|[(M & H)|[I1 I2]]].
    + apply (A3 _ _ _ _ _ H).
    + apply (B3 _ _ _ _ _ H).
    + apply HD; auto.
Qed.
Lemma lo_rev_app (F F1 F2 : list Z -> Prop) X Y : lists_once F1 X -> lists_once F2 Y -> (forall c, F c <-> F1 c \/ F2 c) ->
  (forall c c', F1 c -> F2 c' -> ~ same_elements c c') -> lists_once F (Y ++ X).
Proof.
  intros H1 H2 HF HD. apply (lo_app F F2 F1); [exact H2|exact H1|intros c; rewrite HF; tauto|].
  intros c c' A B E. apply (HD c' c B A). apply same_sym, E.
Qed.

Section Cliques.
  Context (g : graph).
  Hypothesis Hg : undirected g.

  Lemma nbr_In u v : In v (nbr g u) <-> edge g u v.
  Proof.
    unfold nbr, edge, weight. destruct (dget g u) as [a|] eqn:E.
    - rewrite dget_key. split; intros (w & H); exists w; exact H.
    - split; [intros []|intros (w & H); discriminate].
  Qed.
  Lemma esym u v : edge g u v <-> edge g v u.
  Proof. destruct Hg as (_ & _ & _ & H). unfold edge. rewrite H. reflexivity. Qed.
  Lemma edge_v u v : edge g u v -> vertex g v.
  Proof. destruct Hg as (_ & _ & H & _). apply H. Qed.

  (** The maximal cliques between R and R with P. *)
  Definition family (R P : list Z) (c : list Z) : Prop := maximal_clique g c /\ incl R c /\ incl c (R ++ P).

  (** All vertices adjacent to R are in P or in X. *)
  Definition closed (R P X : list Z) : Prop :=
    clique g R /\ NoDup P /\ (forall v, In v P -> ~ In v R) /\ (forall v, In v P -> ~ In v X) /\
    (forall v, (vertex g v /\ ~ In v R /\ forall u, In u R -> edge g u v) <-> In v P \/ In v X).

  Lemma clique_sub c c' : clique g c -> NoDup c' -> incl c' c -> clique g c'.
  Proof. intros (N & V & E) N' I. split; [exact N'|]. split; [intros u Hu; apply V, I, Hu|]. intros u v Hu Hv. apply E; apply I; assumption. Qed.

  Lemma family_leaf R : clique g R -> (forall v, ~ (vertex g v /\ ~ In v R /\ forall u, In u R -> edge g u v)) -> lists_once (family R []) [R].
  Proof.
    intros HR H. apply lo_one.
    - split; [|split; [apply incl_refl|rewrite app_nil_r; apply incl_refl]]. split; [exact HR|]. intros v Hv Nv.
      assert (D : forall l, incl l R -> (exists u, In u l /\ ~ edge g u v) \/ forall u, In u l -> edge g u v).
      { induction l as [|a l IH]; intros Hl; [right; intros u []|]. destruct (IH (fun x I => Hl x (or_intror I))) as [(u & I & E)|All].
        - left. exists u. split; [right; exact I|exact E].
        - destruct (in_dec Z.eq_dec v (nbr g a)) as [I|I]; rewrite nbr_In in I.
          + right. intros u [<-|Hu]; auto.
          + left. exists a. split; [left; reflexivity|exact I]. }
      destruct (D R (incl_refl R)) as [K|K]; [exact K|]. exfalso. apply (H v). auto.
    - intros c (_ & I1 & I2) x. rewrite app_nil_r in I2. split; [apply I2|apply I1].
  Qed.

  (** A vertex adjacent to R prevents R from being maximal. *)
  Lemma family_none R v : vertex g v -> ~ In v R -> (forall u, In u R -> edge g u v) -> forall c, ~ family R [] c.
  Proof.
    intros Hv Nv Ev c ((_ & M) & I1 & I2). rewrite app_nil_r in I2. destruct (M v Hv) as (u & Hu & NE).
    - intros I. apply Nv, I2, I.
    - apply NE, Ev, I2, Hu.
  Qed.

  (** The cliques that contain u, and those that do not. *)
  Lemma family_split R P X u : closed R P X -> In u P ->
    (forall c, family R P c <-> family (R ++ [u]) (inter (discard P u) (nbr g u)) c \/ family R (discard P u) c) /\
    (forall c c', family (R ++ [u]) (inter (discard P u) (nbr g u)) c -> family R (discard P u) c' -> ~ same_elements c c').
  Proof.
    intros (HR & NP & D & D' & HC) Hu. split.
    - intros c. split.
      + intros (M & I1 & I2). destruct (in_dec Z.eq_dec u c) as [Iu|Iu].
        * left. split; [exact M|]. split; [intros x Hx; apply in_app_or in Hx as [Hx|[<-|[]]]; auto|].
          intros x Hx. pose proof (I2 x Hx) as J. apply in_app_or in J. rewrite !in_app_iff. cbn [In].
          destruct J as [J|J]; [auto|]. destruct (Z.eq_dec u x) as [->|Nx]; [auto|]. right.
          apply inter_In. split; [apply discard_In; auto|]. apply nbr_In. destruct M as ((_ & _ & E) & _). apply E; auto.
        * right. split; [exact M|]. split; [exact I1|]. intros x Hx. pose proof (I2 x Hx) as J. apply in_app_or in J. apply in_or_app.
          destruct J as [J|J]; [auto|]. right. apply discard_In. split; [exact J|]. intros ->. contradiction.
      + intros [(M & I1 & I2)|(M & I1 & I2)]; (split; [exact M|]); split.
        * intros x Hx. apply I1, in_or_app. auto.
        * intros x Hx. pose proof (I2 x Hx) as J. rewrite !in_app_iff, inter_In, discard_In in J. cbn [In] in J. apply in_or_app.
          destruct J as [[J|[<-|[]]]|[[J _] _]]; auto.
        * exact I1.
        * intros x Hx. pose proof (I2 x Hx) as J. rewrite in_app_iff, discard_In in J. apply in_or_app. tauto.
    - intros c c' (_ & I1 & _) (_ & _ & I2) E. assert (Iu : In u c') by (apply E, I1, in_or_app; right; left; reflexivity).
      apply I2, in_app_or in Iu. rewrite discard_In in Iu. destruct Iu as [Iu|[_ Iu]]; [apply (D u Hu Iu)|congruence].
  Qed.

  Lemma closed_in R P X u : closed R P X -> In u P -> closed (R ++ [u]) (inter (discard P u) (nbr g u)) (inter X (nbr g u)).
  Proof.
    intros (HR & NP & D & D' & HC) Hu.
    assert (Cu : vertex g u /\ ~ In u R /\ forall w, In w R -> edge g w u) by (apply HC; auto). destruct Cu as (Vu & Nu & Eu).
    split; [|split; [|split; [|split]]].
    - destruct HR as (N & V & E). split; [apply NoDup_app_intro; [exact N|constructor; [intros []|constructor]|intros x Hx [<-|[]]; contradiction]|].
      split; [intros x Hx; apply in_app_or in Hx as [Hx|[<-|[]]]; auto|].
      intros x y Hx Hy Ne. apply in_app_or in Hx, Hy. destruct Hx as [Hx|[<-|[]]], Hy as [Hy|[<-|[]]]; auto; [|congruence].
      apply esym, Eu, Hy.
    - apply inter_nodup, discard_nodup, NP.
    - intros v Hv I. rewrite inter_In, discard_In in Hv. apply in_app_or in I as [I|[<-|[]]]; [|destruct Hv as [[_ Hv] _]; congruence].
      apply (D v); tauto.
    - intros v Hv I. rewrite inter_In, discard_In in Hv. rewrite inter_In in I. apply (D' v); tauto.
    - intros v. rewrite !inter_In, discard_In, nbr_In. split.
      + intros (Vv & Nv & Ev). assert (K : In v P \/ In v X).
        { apply HC. split; [exact Vv|]. split; [intros I; apply Nv, in_or_app; auto|]. intros w Hw. apply Ev, in_or_app. auto. }
        assert (Euv : edge g u v) by (apply Ev, in_or_app; right; left; reflexivity).
        destruct K as [K|K]; [left|right; auto]. split; [split; [exact K|]|exact Euv]. intros ->. apply Nv, in_or_app. right. left. reflexivity.
      + intros K. assert (K' : In v P \/ In v X) by tauto. apply HC in K' as (Vv & Nv & Ev). split; [exact Vv|].
        assert (Nuv : v <> u) by (destruct K as [K|[K _]]; [tauto|intros ->; apply (D' u Hu K)]).
        split; [intros I; apply in_app_or in I as [I|[I|[]]]; [contradiction|congruence]|].
        intros w Hw. apply in_app_or in Hw as [Hw|[<-|[]]]; [auto|tauto].
  Qed.

  Lemma closed_out R P X u : closed R P X -> In u P -> closed R (discard P u) (u :: X).
  Proof.
    intros (HR & NP & D & D' & HC) Hu. split; [exact HR|]. split; [apply discard_nodup, NP|].
    split; [intros v Hv; apply discard_In in Hv; apply D; tauto|].
    split; [intros v Hv [I|I]; apply discard_In in Hv; [destruct Hv; congruence|apply (D' v); tauto]|].
    intros v. rewrite HC, discard_In. cbn [In]. split.
    - intros [K|K]; [destruct (Z.eq_dec u v) as [->|N]; auto|auto].
    - intros [K|[<-|K]]; tauto.
  Qed.

  Lemma bk_loop_ok pick : (forall r l, l <> [] -> In (pick r l) l) -> forall fuel R P X, closed R P X ->
    (length P <= fuel)%nat -> (P <> [] \/ X <> []) -> lists_once (family R P) (bk_loop g pick fuel R P X).
  Proof.
    intros Hpick. 
    assert (Empty : forall R X, closed R [] X -> ([] <> @nil Z \/ X <> []) -> lists_once (family R []) []).
    { intros R X (HR & _ & _ & _ & HC) Hne. apply lo_nil. destruct X as [|v X]; [destruct Hne; congruence|].
      assert (K : In v [] \/ In v (v :: X)) by (right; left; reflexivity). apply HC in K as (K1 & K2 & K3). apply (family_none R v K1 K2 K3). }
    induction fuel as [|fuel IH]; intros R P X HC Hf Hne; cbn [bk_loop].
    - destruct P as [|p P]; [|cbn in Hf; lia]. apply (Empty R X HC Hne).
    - destruct P as [|p P]; [apply (Empty R X HC Hne)|]. set (PP := p :: P) in *.
      assert (Hu : In (pick R PP) PP) by (apply Hpick; discriminate). set (u := pick R PP) in *.
      destruct (family_split R PP X u HC Hu) as [F1 F2]. pose proof (discard_len PP u Hu) as Hl.
      apply (lo_app (family R PP) (family (R ++ [u]) (inter (discard PP u) (nbr g u))) (family R (discard PP u))); [| |exact F1|exact F2].
      + pose proof (closed_in R PP X u HC Hu) as HC'. pose proof (inter_len (discard PP u) (nbr g u)) as Hl2.
        destruct (inter (discard PP u) (nbr g u)) as [|a na] eqn:Ena; [destruct (inter X (nbr g u)) as [|b nf] eqn:Enf|].
        * destruct HC' as (HR' & _ & _ & _ & HC'). apply family_leaf; [exact HR'|]. intros v K. apply HC' in K as [[]|[]].
        * apply IH; [exact HC'|cbn; lia|right; discriminate].
        * apply IH; [exact HC'|lia|left; discriminate].
      + apply IH; [apply closed_out; assumption|lia|right; discriminate].
  Qed.

  Lemma closed_start : closed [] (dkeys g) [].
  Proof.
    split; [split; [constructor|split; [intros u []|intros u v []]]|]. split; [apply Hg|]. split; [intros v _ []|]. split; [intros v _ []|].
    intros v. split; [intros (V & _); left; exact V|]. intros [V|[]]. split; [exact V|]. split; [intros []|intros u []].
  Qed.
  Lemma family_start c : family [] (dkeys g) c <-> maximal_clique g c.
  Proof. split; [intros (M & _); exact M|]. intros M. split; [exact M|]. split; [intros x []|]. intros x Hx. cbn. destruct M as ((_ & V & _) & _). apply V, Hx. Qed.

  Lemma bron_kerbosch_ok pick : (forall r l, l <> [] -> In (pick r l) l) -> lists_once (maximal_clique g) (bron_kerbosch g pick).
  Proof.
    intros Hpick. apply (lo_ext (family [] (dkeys g))); [apply family_start|]. unfold bron_kerbosch. pose proof closed_start as HC.
    destruct (dkeys g) as [|v l] eqn:E.
    - destruct HC as (HR & _ & _ & _ & HC). apply family_leaf; [exact HR|]. intros v K. apply HC in K as [[]|[]].
    - apply bk_loop_ok; [exact Hpick|exact HC|lia|left; discriminate].
  Qed.

  (** ** tomita *)
  Hypothesis Hl : loop_free g.
  Context (ord : list Z -> list Z -> list Z).
  Hypothesis Hord : forall r l, Permutation (ord r l) l.

  Lemma no_loop u : ~ edge g u u. Proof. intros (w & E). rewrite Hl in E. discriminate. Qed.

  (** [subgraph] holds P and X. *)
  Definition tentry (R P SG : list Z) : Prop :=
    exists X, closed R P X /\ forall v, In v SG <-> In v P \/ In v X.

  Lemma pivot_In cand l : forall d u, (forall v, In v l -> d = -1 \/ True) -> l <> [] -> d = -1 \/ In u l ->
    In (snd (fold_left (fun '(max_deg, u) v =>
      let deg := Z.of_nat (length (inter (nbr g v) cand)) in if max_deg <? deg then (deg, v) else (max_deg, u)) l (d, u))) l \/
    (d <> -1 /\ snd (fold_left (fun '(max_deg, u) v =>
      let deg := Z.of_nat (length (inter (nbr g v) cand)) in if max_deg <? deg then (deg, v) else (max_deg, u)) l (d, u)) = u).
  Proof.
    induction l as [|v l IH]; intros d u _ Hne Hd; [congruence|]. cbn [fold_left].
    assert (K : forall d' u', 0 <= d' -> (In (snd (fold_left (fun '(max_deg, u) v =>
      let deg := Z.of_nat (length (inter (nbr g v) cand)) in if max_deg <? deg then (deg, v) else (max_deg, u)) l (d', u'))) l \/
      snd (fold_left (fun '(max_deg, u) v =>
      let deg := Z.of_nat (length (inter (nbr g v) cand)) in if max_deg <? deg then (deg, v) else (max_deg, u)) l (d', u')) = u')).
    { clear. induction l as [|v l IH]; intros d u Hd; cbn [fold_left]; [right; reflexivity|].
      destruct (d <? Z.of_nat (length (inter (nbr g v) cand))).
      - destruct (IH (Z.of_nat (length (inter (nbr g v) cand))) v ltac:(lia)) as [I|E]; [left; right; exact I|left; left; symmetry; exact E].
      - destruct (IH d u Hd) as [I|E]; [left; right; exact I|right; exact E]. }
    destruct (Z.ltb_spec d (Z.of_nat (length (inter (nbr g v) cand)))) as [L|L].
    - left. destruct (K (Z.of_nat (length (inter (nbr g v) cand))) v ltac:(lia)) as [I|E]; [right; exact I|left; symmetry; exact E].
    - destruct (K d u ltac:(lia)) as [I|E]; [left; right; exact I|]. right. split; [lia|exact E].
  Qed.
  Lemma best_pivot_In cand l u : l <> [] -> In (best_pivot g cand l u) l.
  Proof. intros H. destruct (pivot_In cand l (-1) u) as [I|[E _]]; [auto|exact H|left; reflexivity|exact I|congruence]. Qed.

  (** The cliques that meet qs. *)
  Definition meets (R P qs : list Z) (c : list Z) : Prop := family R P c /\ exists q, In q qs /\ In q c.

  (** The stack lists disjoint families. *)
  Inductive stack_lists : list (list Z * list Z * list Z) -> (list Z -> Prop) -> Prop :=
  | sl_nil (F : list Z -> Prop) : (forall c, ~ F c) -> stack_lists [] F
  | sl_cons SG P R st F F' : tentry R P SG -> stack_lists st F' -> (forall c, F c <-> family R P c \/ F' c) ->
      (forall c c', family R P c -> F' c' -> ~ same_elements c c') -> stack_lists ((SG, P, R) :: st) F.

  Lemma sl_ext st F F' : stack_lists st F -> (forall c, F c <-> F' c) -> stack_lists st F'.
  Proof.
    intros H E. destruct H as [F H|SG P R st F F0 HT HS HF HD].
    - constructor. intros c Fc. apply (H c), E, Fc.
    - econstructor; [exact HT|exact HS| |exact HD]. intros c. rewrite <- E. apply HF.
  Qed.

  Lemma push_lists SG R : forall qs P, tentry R P SG -> NoDup qs -> incl qs P -> 
    forall st F F0, stack_lists st F0 -> (forall c, F c <-> meets R P qs c \/ F0 c) ->
    (forall c c', meets R P qs c -> F0 c' -> ~ same_elements c c') ->
    stack_lists (rev (tomita_push g SG P R qs) ++ st) F.
  Proof.
    induction qs as [|q qs IH]; intros P (X & HC & HSG) NQ HQ st F F0 HS HF HD; cbn [tomita_push rev app].
    - apply (sl_ext st F0); [exact HS|]. intros c. rewrite HF. split; [auto|]. intros [(_ & q & [] & _)|H]; exact H.
    - inversion_clear NQ as [|? ? Nq NQ']. assert (Hq : In q P) by (apply HQ; left; reflexivity).
      destruct (family_split R P X q HC Hq) as [F1 F2].
      assert (EP : forall v, In v (inter P (nbr g q)) <-> In v (inter (discard P q) (nbr g q))).
      { intros v. rewrite !inter_In, discard_In, nbr_In. split; [|tauto]. intros [H1 H2]. split; [split; [exact H1|]|exact H2].
        intros ->. apply (no_loop q H2). }
      assert (EP' : inter P (nbr g q) = inter (discard P q) (nbr g q)).
      { unfold inter, discard. rewrite <- (filter_ext_in (fun v => negb (v =? q) && mem v (nbr g q)) (fun v => mem v (nbr g q))).
        - clear. induction P as [|v P IH]; cbn; [reflexivity|]. destruct (v =? q), (mem v (nbr g q)) eqn:E; cbn; rewrite ?E, IH; reflexivity.
        - intros v _. destruct (mem v (nbr g q)) eqn:E; [|apply andb_false_r]. rewrite andb_true_r. apply mem_In, nbr_In in E.
          destruct (Z.eqb_spec v q) as [->|N]; [exfalso; apply (no_loop q E)|reflexivity]. }
      rewrite EP'. rewrite <- app_assoc. cbn [app].
      assert (M1 : forall c, meets R P (q :: qs) c <-> family (R ++ [q]) (inter (discard P q) (nbr g q)) c \/ meets R (discard P q) qs c).
      { intros c. unfold meets. rewrite F1. split.
        - intros [[H|H] (x & Hx & Hc)]; [left; exact H|]. right. split; [exact H|]. destruct Hx as [<-|Hx]; [|eauto].
          exfalso. destruct H as (_ & _ & I2). apply I2, in_app_or in Hc as [Hc|Hc]; [|apply discard_In in Hc; tauto].
          destruct HC as (_ & _ & D & _). apply (D q Hq Hc).
        - intros [H|[H (x & Hx & Hc)]].
          + split; [left; exact H|]. exists q. split; [left; reflexivity|]. destruct H as (_ & I1 & _). apply I1, in_or_app. right. left. reflexivity.
          + split; [right; exact H|]. exists x. split; [right; exact Hx|exact Hc]. }
      apply (IH (discard P q)) with (F0 := fun c => family (R ++ [q]) (inter (discard P q) (nbr g q)) c \/ F0 c).
      + exists (q :: X). split; [apply closed_out; assumption|]. intros v. rewrite HSG, discard_In. cbn [In].
        split; [intros [H|H]; [destruct (Z.eq_dec q v) as [->|N]; auto|auto]|]. intros [H|[<-|H]]; tauto.
      + exact NQ'.
      + intros x Hx. apply discard_In. split; [apply HQ; right; exact Hx|]. intros ->. contradiction.
      + econstructor; [|exact HS|intros c; reflexivity|].
        * exists (inter X (nbr g q)). split; [apply closed_in; assumption|]. intros v. rewrite !inter_In, HSG, discard_In, nbr_In.
          split; [|tauto]. intros [[H|H] E]; [left|right; auto]. split; [split; [exact H|]|exact E]. intros ->. apply (no_loop q E).
        * intros c c' Hc Hc'. apply HD; [|exact Hc']. apply M1. left. exact Hc.
      + intros c. rewrite HF, M1. tauto.
      + intros c c' Hc [Hc'|Hc'].
        * intros E. destruct Hc as [Hc _]. apply (F2 c' c Hc' Hc), same_sym, E.
        * apply HD; [|exact Hc']. apply M1. right. exact Hc.
  Qed.

  (** Every maximal clique meets what the pivot leaves. *)
  Lemma pivot_meets R P SG u : tentry R P SG -> In u SG -> forall c, family R P c <-> meets R P (diff P (nbr g u)) c.
  Proof.
    intros (X & (HR & NP & D & D' & HC) & HSG) Hu c. split; [|intros [H _]; exact H]. intros H. split; [exact H|].
    destruct H as (M & I1 & I2). apply HSG in Hu. pose proof Hu as Hu'. apply HC in Hu' as (Vu & Nu & Eu).
    assert (Dc : (exists q, In q (diff P (nbr g u)) /\ In q c) \/ forall q, In q c -> ~ In q (diff P (nbr g u))).
    { clear -c. induction c as [|a c IH]; [right; intros q []|]. destruct (in_dec Z.eq_dec a (diff P (nbr g u))) as [I|I].
      - left. exists a. split; [exact I|left; reflexivity].
      - destruct IH as [(q & H1 & H2)|All]; [left; exists q; split; [exact H1|right; exact H2]|]. right. intros q [<-|Hq]; auto. }
    destruct Dc as [K|K]; [exact K|]. exfalso.
    assert (Nc : ~ In u c).
    { intros I. apply (K u I). apply diff_In. apply I2, in_app_or in I as I'. destruct I' as [I'|I']; [contradiction|].
      split; [exact I'|]. rewrite nbr_In. apply no_loop. }
    destruct M as (_ & M). destruct (M u Vu Nc) as (x & Hx & NE). apply NE.
    pose proof (I2 x Hx) as J. apply in_app_or in J as [J|J]; [apply Eu, J|]. specialize (K x Hx). rewrite diff_In, nbr_In in K.
    destruct (in_dec Z.eq_dec x (nbr g u)) as [I|I]; rewrite nbr_In in I; [apply esym, I|]. exfalso. apply K. auto.
  Qed.

  (** The work an entry of the stack causes. *)
  Fixpoint work (n : nat) : nat := match n with O => 1 | S k => S (S k * work k) end.
  Lemma work_pos n : (1 <= work n)%nat. Proof. destruct n; cbn; lia. Qed.
  Lemma work_mono n m : (n <= m)%nat -> (work n <= work m)%nat.
  Proof. induction 1 as [|m H IH]; [lia|]. cbn [work]. nia. Qed.
  Definition stack_work (st : list (list Z * list Z * list Z)) : nat :=
    fold_right (fun e t => (work (length (fst (fst e))) + t)%nat) O st.
  Lemma stack_work_app a b : stack_work (a ++ b) = (stack_work a + stack_work b)%nat.
  Proof. unfold stack_work. induction a as [|x a IH]; cbn; [reflexivity|]. rewrite IH. lia. Qed.
  Lemma stack_work_rev a : stack_work (rev a) = stack_work a.
  Proof. induction a as [|x a IH]; cbn [rev]; [reflexivity|]. rewrite stack_work_app, IH. unfold stack_work. cbn. lia. Qed.
  Lemma push_work SG R qs : incl qs SG -> forall P, (stack_work (tomita_push g SG P R qs) <= length qs * work (pred (length SG)))%nat.
  Proof.
    intros HQ. induction qs as [|q qs IH]; intros P; cbn [tomita_push stack_work fold_right length fst]; [lia|].
    specialize (IH (fun x I => HQ x (or_intror I)) (discard P q)). unfold stack_work in IH. 
    assert (L : (length (inter SG (nbr g q)) <= pred (length SG))%nat).
    { assert (Hq : In q SG) by (apply HQ; left; reflexivity).
      assert (E : mem q (nbr g q) = false) by (apply mem_false; rewrite nbr_In; apply no_loop).
      pose proof (filter_len_lt (fun v => mem v (nbr g q)) SG q Hq E). unfold inter. lia. }
    pose proof (work_mono _ _ L). lia.
  Qed.

  Lemma tomita_loop_ok : forall fuel u st F, stack_lists st F -> (stack_work st <= fuel)%nat ->
    exists L, tomita_loop g ord fuel u st = (L, GEnded) /\ lists_once F L.
  Proof.
    induction fuel as [|fuel IH]; intros u st F HS Hf.
    - destruct HS as [F H|SG P R st F F' _ _ _ _].
      + exists []. split; [reflexivity|apply lo_nil, H].
      + cbn in Hf. pose proof (work_pos (length SG)). lia.
    - destruct HS as [F H|SG P R st F F' HT HS HF HD].
      + exists []. split; [reflexivity|apply lo_nil, H].
      + cbn [tomita_loop]. cbn [stack_work fold_right fst] in Hf. fold (stack_work st) in Hf. destruct SG as [|s SG].
        * destruct (IH u st F' HS) as (L & E & HL); [cbn in Hf; lia|]. rewrite E. exists (R :: L). split; [reflexivity|].
          apply (lo_app F (family R P) F' [R] L); [|exact HL|exact HF|exact HD].
          destruct HT as (X & (HR & _ & _ & _ & HC) & HSG).
          assert (P0 : P = []) by (destruct P as [|p P]; [reflexivity|]; exfalso; apply (HSG p); left; left; reflexivity). subst P.
          apply family_leaf; [exact HR|]. intros v K. apply HC in K. apply HSG in K. exact K.
        * set (SS := s :: SG) in *. assert (Hp : In (best_pivot g P (ord R SS) u) SS).
          { apply (Permutation_in _ (Hord R SS)). apply best_pivot_In. intros E. apply (Permutation_nil) in E || idtac.
            pose proof (Permutation_length (Hord R SS)) as Lp. rewrite E in Lp. discriminate. }
          set (p := best_pivot g P (ord R SS) u) in *. set (qs := ord R (diff P (nbr g p))).
          assert (Pq : Permutation qs (diff P (nbr g p))) by apply Hord.
          assert (HP : NoDup P /\ incl P SS) by (destruct HT as (X & (_ & NP & _) & HSG); split; [exact NP|intros v Hv; apply HSG; auto]).
          assert (Nq : NoDup qs) by (apply (Permutation_NoDup (Permutation_sym Pq)), diff_nodup, HP).
          assert (Iq : incl qs P) by (intros v Hv; apply (Permutation_in _ Pq), diff_In in Hv; apply Hv).
          apply IH.
          -- apply (push_lists SS R qs P HT Nq Iq st F F' HS).
             ++ intros c. rewrite HF, (pivot_meets R P SS p HT Hp c). unfold meets. split; (intros [[H1 (q & H2 & H3)]|H1]; [left; split; [exact H1|]; exists q; split; [|exact H3]|right; exact H1]).
                ** apply (Permutation_in _ (Permutation_sym Pq)), H2.
                ** apply (Permutation_in _ Pq), H2.
             ++ intros c c' [Hc _]. apply HD, Hc.
          -- rewrite stack_work_app, stack_work_rev. pose proof (push_work SS R qs (fun x I => proj2 HP x (Iq x I)) P) as W.
             assert (Lq : (length qs <= length SS)%nat) by (apply NoDup_incl_length; [exact Nq|intros v Hv; apply HP, Iq, Hv]).
             assert (EL : length SS = S (length SG)) by reflexivity. rewrite EL in *. cbn [work pred] in *. nia.
  Qed.

  Lemma tomita_ok : exists L, yields (tomita g ord) L /\ lists_once (maximal_clique g) L.
  Proof.
    assert (HS : stack_lists [(dkeys g, dkeys g, [])] (maximal_clique g)).
    { econstructor; [exists []; split; [apply closed_start|intros v; cbn; tauto]|apply (sl_nil (fun _ => False)); tauto| |tauto].
      intros c. rewrite family_start. tauto. }
    destruct (tomita_loop_ok (stack_work [(dkeys g, dkeys g, [])]) 0 _ _ HS (le_n _)) as (L & E & HL).
    exists L. split; [|exact HL]. exists (stack_work [(dkeys g, dkeys g, [])]). intros fuel Hf. unfold tomita.
    destruct (tomita_loop_ok fuel 0 _ _ HS Hf) as (L' & E' & _). rewrite E'.
    enough (K : forall f1 f2 u st L1 L2, tomita_loop g ord f1 u st = (L1, GEnded) -> tomita_loop g ord f2 u st = (L2, GEnded) -> L1 = L2).
    { rewrite (K _ _ _ _ _ _ E E'). reflexivity. }
    clear. induction f1 as [|f1 IH]; intros f2 u st L1 L2 E1 E2; destruct st as [|[[SG P] R] st].
    - destruct f2; cbn in *; congruence.
    - discriminate.
    - destruct f2; cbn in *; congruence.
    - destruct f2 as [|f2]; [discriminate|]. cbn [tomita_loop] in *. destruct SG as [|s SG]; [|eapply IH; eassumption].
      destruct (tomita_loop g ord f1 u st) as [l1 s1] eqn:F1, (tomita_loop g ord f2 u st) as [l2 s2] eqn:F2.
      injection E1 as <- ->. injection E2 as <- ->. f_equal. eapply IH; eassumption.
  Qed.
End Cliques.
