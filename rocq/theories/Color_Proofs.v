(** * Heuristic colourings *)
From Coq Require Import ZArith List Lia Bool Permutation.
From Verif Require Import Base Py Dict Lists Lists2 Graph_Model Graph_Spec Graph_Proofs Graph_Proofs2 Trav_Model Trav_Proofs Color_Model Color_Spec.
Import ListNotations.
Open Scope Z_scope.

Lemma colours_of_In cm l c : In c (colours_of cm l) <-> exists u, In u l /\ dget cm u = Some c.
Proof.
  unfold colours_of. rewrite in_flat_map. split.
  - intros (u & Hu & Hc). exists u. split; [exact Hu|]. destruct (dget cm u); [|destruct Hc]. destruct Hc as [->|[]]. reflexivity.
  - intros (u & Hu & E). exists u. split; [exact Hu|]. rewrite E. left. reflexivity.
Qed.
Lemma colours_of_len cm l : (length (colours_of cm l) <= length l)%nat.
Proof.
  unfold colours_of. induction l as [|u l IH]; cbn; [lia|]. rewrite app_length. destruct (dget cm u); cbn; lia.
Qed.

Lemma without_In l u v : In v (without l u) <-> In v l /\ v <> u.
Proof. unfold without. rewrite filter_In, negb_true_iff, Z.eqb_neq. reflexivity. Qed.
Lemma without_nodup l u : NoDup l -> NoDup (without l u).
Proof. apply NoDup_filter. Qed.
Lemma without_len l u : NoDup l -> In u l -> length l = S (length (without l u)).
Proof.
  intros N H. assert (P : Permutation l (u :: without l u)).
  { apply NoDup_same_perm; [exact N| |].
    - constructor; [rewrite without_In; tauto|apply without_nodup, N].
    - intros x. cbn. rewrite without_In. split; [intros K; destruct (Z.eq_dec x u); [left; congruence|right; tauto]|intros [<-|K]; tauto]. }
  rewrite (Permutation_length P). reflexivity.
Qed.

(** ** Dividing a dictionary by colour *)
Lemma filter_perm {A} (f : A -> bool) l : Permutation l (filter f l ++ filter (fun x => negb (f x)) l).
Proof.
  induction l as [|x l IH]; [constructor|]. cbn [filter]. destruct (f x); cbn [negb app]; [constructor; exact IH|].
  apply Permutation_cons_app. exact IH.
Qed.
Lemma partition_perm {A} (key : A -> Z) : forall cs l, NoDup cs -> (forall x, In x l -> In (key x) cs) ->
  Permutation (flat_map (fun c => filter (fun x => key x =? c) l) cs) l.
Proof.
  induction cs as [|c cs IH]; intros l N H.
  - destruct l as [|x l]; [constructor|]. exfalso. apply (H x). left. reflexivity.
  - inversion_clear N as [|? ? Nc Ncs]. cbn [flat_map]. symmetry. rewrite (filter_perm (fun x => key x =? c) l) at 1.
    apply Permutation_app_head. symmetry. etransitivity; [|apply IH; [exact Ncs|]].
    + replace (flat_map (fun c0 => filter (fun x => key x =? c0) l) cs)
        with (flat_map (fun c0 => filter (fun x => key x =? c0) (filter (fun x => negb (key x =? c)) l)) cs); [reflexivity|].
      clear -Nc. induction cs as [|d cs IH]; [reflexivity|]. cbn [flat_map]. rewrite IH by (intros K; apply Nc; right; exact K). f_equal.
      assert (D : d <> c) by (intros ->; apply Nc; left; reflexivity). clear -D.
      induction l as [|x l IH]; [reflexivity|]. cbn [filter]. destruct (Z.eqb_spec (key x) c) as [E|E]; cbn [negb].
      * rewrite IH. destruct (Z.eqb_spec (key x) d); [congruence|reflexivity].
      * cbn [filter]. rewrite IH. reflexivity.
    + intros x Hx. apply filter_In in Hx as [Hx E]. rewrite negb_true_iff, Z.eqb_neq in E. destruct (H x Hx) as [K|K]; [congruence|exact K].
Qed.

Lemma flat_map_map {A B C} (f : A -> list B) (h : B -> C) l : flat_map (fun x => map h (f x)) l = map h (flat_map f l).
Proof. induction l as [|x l IH]; [reflexivity|]. cbn. rewrite IH, map_app. reflexivity. Qed.

Lemma classes_perm lo k cm : (forall v c, In (v, c) cm -> lo <= c < lo + k) -> Permutation (concat (color_classes lo k cm)) (map fst cm).
Proof.
  intros H. unfold color_classes. rewrite <- flat_map_concat_map, flat_map_map. apply Permutation_map.
  apply (partition_perm snd); [apply zrange_NoDup|]. intros [v c] Hx. apply zrange_In. exact (H v c Hx).
Qed.

Section Colour.
  Context (g : graph).
  Hypothesis Hg : undirected g.
  Hypothesis Hl : loop_free g.

  Lemma no_loop' u : ~ edge g u u. Proof. intros (w & E). rewrite Hl in E. discriminate. Qed.
  Lemma edge_sym' u v : edge g u v -> edge g v u.
  Proof. intros (w & E). exists w. destruct Hg as (_ & _ & _ & S). rewrite S. exact E. Qed.

  (** A colouring of some of the vertices. *)
  Definition pcol (lo k : Z) (cm : list (Z * Z)) : Prop :=
    NoDup (dkeys cm) /\ (forall v, In v (dkeys cm) -> vertex g v) /\
    (forall c, (exists v, In (v, c) cm) <-> lo <= c < lo + k) /\
    (forall u v c d, In (u, c) cm -> In (v, d) cm -> edge g u v -> c <> d).

  Lemma pcol_total lo k cm : pcol lo k cm -> (forall v, vertex g v -> In v (dkeys cm)) -> proper_map g lo k cm.
  Proof. intros (A & B & C & D) H. split; [exact A|]. split; [intros v; split; [apply H|apply B]|]. split; [exact C|exact D]. Qed.

  Lemma pcol_add lo k cm u c k' : pcol lo k cm -> 0 <= k -> vertex g u -> ~ In u (dkeys cm) ->
    (forall v, edge g u v -> dget cm v <> Some c) ->
    (lo <= c < lo + k /\ k' = k \/ c = lo + k /\ k' = k + 1) -> pcol lo k' (dset cm u c).
  Proof.
    intros (A & B & C & D) K0 Hu Nu Hc Hk. rewrite (dset_new cm u c Nu). split; [|split; [|split]].
    - rewrite dkeys_app. apply NoDup_app_intro; [exact A|repeat constructor; intros []|]. intros x Hx [<-|[]]. exact (Nu Hx).
    - intros v. rewrite dkeys_app, in_app_iff. intros [K|[<-|[]]]; [apply B, K|exact Hu].
    - intros d. split.
      + intros (v & Hv). apply in_app_iff in Hv as [Hv|[E|[]]].
        * assert (lo <= d < lo + k) by (apply C; exists v; exact Hv). lia.
        * inversion E; subst. lia.
      + intros Hd. destruct (Z.eq_dec d c) as [->|Nd]; [exists u; apply in_app_iff; right; left; reflexivity|].
        assert (X : exists v, In (v, d) cm) by (apply C; lia). destruct X as (v & Hv). exists v. apply in_app_iff. left. exact Hv.
    - assert (X : forall v d, In (v, d) cm -> edge g u v -> c <> d).
      { intros v d Hv He <-. apply (Hc v He). apply (dget_In cm v c A Hv). }
      intros x y cx cy Hx Hy He. apply in_app_iff in Hx as [Hx|[E|[]]], Hy as [Hy|[E'|[]]].
      + exact (D x y cx cy Hx Hy He).
      + inversion E'; subst. intros <-. exact (X x cx Hx (edge_sym' _ _ He) eq_refl).
      + inversion E; subst. exact (X y cy Hy He).
      + inversion E; inversion E'; subst. destruct (no_loop' _ He).
  Qed.

  Lemma pcol_one u c : vertex g u -> pcol c 1 [(u, c)].
  Proof.
    intros Hu. split; [repeat constructor; intros []|]. split; [intros v [<-|[]]; exact Hu|]. split.
    - intros d. split; [intros (v & [E|[]]); inversion E; lia|]. intros H. exists u. left. f_equal. lia.
    - intros x y cx cy [E|[]] [E'|[]] He. inversion E; inversion E'; subst. destruct (no_loop' _ He).
  Qed.

  (** What [give_colour] does for an uncoloured vertex. *)
  Lemma give_colour_ok cm k u a : pcol 0 k cm -> 0 < k -> vertex g u -> ~ In u (dkeys cm) -> NoDup a -> (forall v, In v a <-> edge g u v) ->
    exists c k', give_colour cm k u (colours_of cm a) = (dset cm u c, k') /\ pcol 0 k' (dset cm u c) /\ 0 <= c /\ k <= k' /\ k' <= Z.max k (c + 1) /\
      c <= Z.of_nat (length a) /\ (forall d, (forall v e, edge g u v -> dget cm v = Some e -> e < d) -> 0 <= d -> c <= d).
  Proof.
    intros P K0 Hu Nu Na Ha. unfold give_colour.
    destruct (find (fun c => negb (mem c (colours_of cm a))) (zrange 0 (k + 1))) as [c|] eqn:E.
    - pose proof (find_some _ _ E) as [Rc Fc]. apply zrange_In in Rc. apply negb_true_iff, mem_false in Fc.
      assert (L : forall d, 0 <= d < c -> In d (colours_of cm a)).
      { intros d Hd. rewrite (zrange_app 0 c (k + 1)) in E by lia.
        assert (X : forall l1 l2, find (fun c => negb (mem c (colours_of cm a))) (l1 ++ l2) = Some c -> ~ In c l1 -> forall x, In x l1 -> In x (colours_of cm a)).
        { induction l1 as [|y l1 IH]; intros l2 H Nc x Hx; [destruct Hx|]. cbn [find app] in H. destruct (mem y (colours_of cm a)) eqn:M; cbn [negb] in H.
          - destruct Hx as [<-|Hx]; [apply mem_In, M|]. apply (IH l2 H); [intros Y; apply Nc; right; exact Y|exact Hx].
          - exfalso. apply Nc. left. congruence. }
        apply (X _ _ E); [rewrite zrange_In; lia|]. apply zrange_In. lia. }
      exists c, (if c =? k then k + 1 else k). split; [reflexivity|]. split; [|split; [lia|]].
      + apply (pcol_add 0 k cm u c); [exact P|lia|exact Hu|exact Nu| |].
        * intros v Hv Ev. apply Fc, colours_of_In. exists v. split; [apply Ha, Hv|exact Ev].
        * destruct (Z.eqb_spec c k); lia.
      + split; [destruct (c =? k); lia|]. split; [destruct (Z.eqb_spec c k); lia|]. split.
        * assert (Y : (length (zrange 0 c) <= length (colours_of cm a))%nat).
          { apply NoDup_incl_length; [apply zrange_NoDup|]. intros d Hd. apply L. apply zrange_In in Hd. exact Hd. }
          rewrite zrange_length in Y. pose proof (colours_of_len cm a). lia.
        * intros d Hd D0. destruct (Z_le_gt_dec c d) as [|G]; [assumption|]. exfalso.
          assert (Y : In d (colours_of cm a)) by (apply L; lia). apply colours_of_In in Y as (v & Hv & Ev). apply Ha in Hv. specialize (Hd v d Hv Ev). lia.
    - exfalso. assert (Y : In k (zrange 0 (k + 1))) by (apply zrange_In; lia). apply (find_none _ _ E) in Y. apply negb_false_iff, mem_In, colours_of_In in Y.
      destruct Y as (v & _ & Ev). apply dget_Some_In in Ev. destruct P as (_ & _ & C & _). assert (0 <= k < 0 + k) by (apply C; exists v; exact Ev). lia.
  Qed.

  Lemma classes_ok lo k cm : 0 <= k -> proper_map g lo k cm -> proper_classes g k (color_classes lo k cm).
  Proof.
    intros K0 (A & B & C & D). split; [unfold color_classes; rewrite map_length, zrange_length; lia|]. split.
    - rewrite classes_perm; [|intros v c Hv; apply C; exists v; exact Hv]. apply NoDup_same_perm; [exact A|apply Hg|]. intros v. rewrite <- B. reflexivity.
    - intros c Hc. apply in_map_iff in Hc as (d & <- & Hd). apply zrange_In in Hd. split.
      + assert (X : exists v, In (v, d) cm) by (apply C; exact Hd). destruct X as (v & Hv).
        assert (Y : In v (map fst (filter (fun uc => snd uc =? d) cm))).
        { apply in_map_iff. exists (v, d). split; [reflexivity|]. apply filter_In. split; [exact Hv|apply Z.eqb_refl]. }
        intros E. rewrite E in Y. destruct Y.
      + intros u v Hu Hv He. apply in_map_iff in Hu as ((u' & cu) & <- & Hu). apply in_map_iff in Hv as ((v' & cv) & <- & Hv).
        apply filter_In in Hu as [Hu E1], Hv as [Hv E2]. apply Z.eqb_eq in E1, E2. cbn [fst snd] in *. subst. exact (D _ _ _ _ Hu Hv He eq_refl).
  Qed.

  (** ** The greedy algorithm *)
  Lemma greedy_map_ok v rest : NoDup (v :: rest) -> (forall x, In x (v :: rest) -> vertex g x) ->
    exists cm k, greedy_map g (v :: rest) = Ret (cm, k) /\ pcol 0 k cm /\ 0 < k /\ Permutation (dkeys cm) (v :: rest) /\
      (forall D, (forall x, In x (v :: rest) -> degree0 g x <= D) -> k <= D + 1) /\
      (forall h K, h v = 0 -> (forall x, In x (v :: rest) -> 0 <= h x < K) ->
         (forall pre x post y, v :: rest = pre ++ x :: post -> In y pre -> edge g x y -> h y < h x) -> k <= K).
  Proof.
    intros N V. cbn [greedy_map].
    set (I := fun (pre : list Z) (st : list (Z * Z) * Z) => pcol 0 (snd st) (fst st) /\ 0 < snd st /\ Permutation (dkeys (fst st)) (v :: pre) /\
       (forall D, (forall x, In x (v :: pre) -> degree0 g x <= D) -> snd st <= D + 1) /\
       (forall h K, h v = 0 -> (forall x, In x (v :: rest) -> 0 <= h x < K) ->
         (forall pre x post y, v :: rest = pre ++ x :: post -> In y pre -> edge g x y -> h y < h x) ->
         snd st <= K /\ forall x c, In (x, c) (fst st) -> c <= h x)).
    destruct (foldM_inv (greedy_step g) I rest ([(v, 0)], 1)) as ([cm k] & E & P & K0 & Pm & HD & HK).
    - split; [apply pcol_one, V; left; reflexivity|]. cbn [fst snd]. split; [lia|]. split; [reflexivity|]. split.
      + intros D HD. specialize (HD v (or_introl eq_refl)). enough (0 <= degree0 g v) by lia. unfold degree0. destruct (dget g v); lia.
      + intros h K Hv Hr _. pose proof (Hr v (or_introl eq_refl)). split; [lia|]. intros x c [Ex|[]]. inversion Ex; subst. lia.
    - intros pre x post [cm k] E (P & K0 & Pm & HD & HK). cbn [fst snd] in *.
      assert (Vx : vertex g x) by (apply V; right; rewrite E; apply in_or_app; right; left; reflexivity).
      destruct (adj_row g Hg x Vx) as (a & Ea & Na & Ha). unfold greedy_step, g_adj, dgetM. rewrite Ea. cbn [bind fst snd].
      assert (Nx : ~ In x (dkeys cm)).
      { intros K. apply (Permutation_in _ Pm) in K. rewrite E in N. inversion_clear N as [|? ? Nv Nr]. apply NoDup_remove in Nr as [_ Nr].
        destruct K as [->|K]; [apply Nv, in_or_app; right; left; reflexivity|apply Nr, in_or_app; left; exact K]. }
      destruct (give_colour_ok cm k x (dkeys a) P K0 Vx Nx Na Ha) as (c & k' & Eg & P' & C0 & K1 & K2 & CD & CL).
      rewrite Eg. eexists. split; [reflexivity|]. unfold I. cbn [fst snd]. split; [exact P'|]. split; [lia|]. split; [|split].
      + rewrite (dset_new cm x c Nx), dkeys_app. cbn [dkeys map fst]. change (v :: pre ++ [x]) with ((v :: pre) ++ [x]). apply Permutation_app_tail. exact Pm.
      + intros D HDD. assert (k <= D + 1) by (apply HD; intros y [<-|Hy]; apply HDD; [left; reflexivity|right; apply in_or_app; left; exact Hy]).
        assert (degree0 g x <= D) by (apply HDD; right; apply in_or_app; right; left; reflexivity). unfold degree0 in *. rewrite Ea in *. unfold dkeys in CD. rewrite map_length in CD. lia.
      + intros h K Hv Hr Hh. destruct (HK h K Hv Hr Hh) as [HK1 HK2].
        assert (Hx : 0 <= h x < K) by (apply Hr; right; rewrite E; apply in_or_app; right; left; reflexivity).
        assert (Cx : c <= h x).
        { apply CL; [|lia]. intros y e He Ee. apply dget_Some_In in Ee. pose proof (HK2 y e Ee).
          assert (Hy : In y (v :: pre)) by (apply (Permutation_in _ Pm); apply in_map_iff; exists (y, e); split; [reflexivity|exact Ee]).
          specialize (Hh (v :: pre) x post y ltac:(cbn; f_equal; exact E) Hy He). lia. }
        split; [lia|]. intros y e Hy. rewrite (dset_new cm x c Nx) in Hy. apply in_app_iff in Hy as [Hy|[Ey|[]]]; [apply HK2, Hy|]. inversion Ey; subst. exact Cx.
    - exists cm, k. rewrite E. cbn [fst snd] in *. split; [reflexivity|]. split; [exact P|]. split; [exact K0|]. split; [exact Pm|]. split; [exact HD|].
      intros h K Hv Hr Hh. apply (HK h K Hv Hr Hh).
  Qed.

  Lemma greedy_map_total vs : Permutation vs (dkeys g) -> g <> [] ->
    exists cm k, greedy_map g vs = Ret (cm, k) /\ proper_map g 0 k cm /\ 0 < k /\
      (forall D, (forall x, vertex g x -> degree0 g x <= D) -> k <= D + 1) /\
      (forall h K, (forall x, vertex g x -> 0 <= h x < K) -> h (hd 0 vs) = 0 ->
         (forall pre x post y, vs = pre ++ x :: post -> In y pre -> edge g x y -> h y < h x) -> k <= K).
  Proof.
    intros Pm Ne. destruct vs as [|v rest].
    - apply Permutation_nil in Pm. destruct g; [congruence|discriminate].
    - assert (V : forall x, In x (v :: rest) <-> vertex g x) by (intros x; split; apply Permutation_in; [exact Pm|symmetry; exact Pm]).
      destruct (greedy_map_ok v rest) as (cm & k & E & P & K0 & Pc & HD & HK).
      + apply (Permutation_NoDup (Permutation_sym Pm)), Hg.
      + intros x. apply V.
      + exists cm, k. split; [exact E|]. split; [|split; [exact K0|split]].
        * apply pcol_total; [exact P|]. intros x Hx. apply (Permutation_in _ (Permutation_sym Pc)), V, Hx.
        * intros D H. apply HD. intros x Hx. apply H, V, Hx.
        * intros h K H1 H2 H3. apply (HK h K); [exact H2|intros x Hx; apply H1, V, Hx|exact H3].
  Qed.

  (** Colouring class by class is no worse. *)
  Lemma concat_split {A} (L : list (list A)) pre x post : concat L = pre ++ x :: post ->
    exists L1 c1 c2 L2, L = L1 ++ (c1 ++ x :: c2) :: L2 /\ pre = concat L1 ++ c1.
  Proof using.
    revert pre. induction L as [|c L IH]; intros pre E; [destruct pre; discriminate|]. cbn [concat] in E.
    apply app_eq_app in E as (l & [[E1 E2]|[E1 E2]]).
    - destruct l as [|y l].
      + cbn [app] in E2. rewrite app_nil_r in E1. destruct (IH [] (eq_sym E2)) as (L1 & c1 & c2 & L2 & F1 & F2).
        exists (c :: L1), c1, c2, L2. split; [cbn; f_equal; exact F1|]. cbn [concat]. rewrite <- app_assoc, <- F2, app_nil_r. congruence.
      + cbn [app] in E2. inversion E2; subst. exists [], pre, l, L. split; reflexivity.
    - destruct (IH l E2) as (L1 & c1 & c2 & L2 & F1 & F2).
      exists (c :: L1), c1, c2, L2. split; [cbn; f_equal; exact F1|]. cbn [concat]. rewrite <- app_assoc, <- F2. exact E1.
  Qed.

  Lemma reclassed lo k cm : 0 < k -> proper_map g lo k cm ->
    let vs := concat (rev (color_classes lo k cm)) in
    Permutation vs (dkeys g) /\
    exists h, (forall x, vertex g x -> 0 <= h x < k) /\ h (hd 0 vs) = 0 /\
      (forall pre x post y, vs = pre ++ x :: post -> In y pre -> edge g x y -> h y < h x).
  Proof.
    intros K0 PM vs. pose proof (classes_ok lo k cm ltac:(lia) PM) as (Lk & Pk & _). pose proof PM as (A & B & C & D).
    assert (Pv : Permutation vs (dkeys g)).
    { unfold vs. rewrite <- Pk. clear. induction (color_classes lo k cm) as [|c L IH]; [constructor|]. cbn [rev]. rewrite concat_app. cbn [concat]. rewrite app_nil_r, IH. apply Permutation_app_comm. }
    split; [exact Pv|]. exists (fun x => match dget cm x with Some c => lo + k - 1 - c | None => 0 end).
    assert (G : forall x, vertex g x -> exists c, dget cm x = Some c /\ In (x, c) cm /\ lo <= c < lo + k).
    { intros x Hx. apply B, dget_key in Hx as (c & E). exists c. split; [exact E|]. apply dget_Some_In in E. split; [exact E|]. apply C. exists x. exact E. }
    split; [intros x Hx; destruct (G x Hx) as (c & -> & _ & R); lia|]. 
    assert (Rv : rev (color_classes lo k cm) = map (fun c => map fst (filter (fun uc => snd uc =? c) cm)) (rev (zrange lo (lo + k)))) by (unfold color_classes; rewrite map_rev; reflexivity).
    assert (Cl : forall c y, In y (map fst (filter (fun uc => snd uc =? c) cm)) -> dget cm y = Some c).
    { intros c y Hy. apply in_map_iff in Hy as ((y' & c') & <- & Hy). apply filter_In in Hy as [Hy E]. apply Z.eqb_eq in E. cbn [fst snd] in *. subst. apply dget_In; assumption. }
    split.
    - unfold vs. rewrite Rv. replace (zrange lo (lo + k)) with (zrange lo (lo + k - 1) ++ [lo + k - 1]).
      2:{ rewrite <- zrange_snoc by lia. f_equal. lia. }
      rewrite rev_app_distr. cbn [rev app map concat].
      assert (X : exists v, In (v, lo + k - 1) cm) by (apply C; lia). destruct X as (v & Hv).
      destruct (map fst (filter (fun uc => snd uc =? lo + k - 1) cm)) as [|y l] eqn:E.
      + exfalso. assert (Y : In v (map fst (filter (fun uc => snd uc =? lo + k - 1) cm))).
        { apply in_map_iff. exists (v, lo + k - 1). split; [reflexivity|]. apply filter_In. split; [exact Hv|apply Z.eqb_refl]. }
        rewrite E in Y. destruct Y.
      + cbn [app hd]. rewrite (Cl (lo + k - 1) y); [lia|]. rewrite E. left. reflexivity.
    - intros pre x post y E Hy He. unfold vs in E. destruct (concat_split _ _ _ _ E) as (L1 & c1 & c2 & L2 & E1 & E2).
      rewrite Rv in E1. apply map_eq_app in E1 as (d1 & d2 & Ed & E3 & E4). destruct d2 as [|c d2]; [discriminate|]. cbn [map] in E4. inversion E4 as [[E5 E6]].
      assert (Hx : dget cm x = Some c) by (apply Cl; rewrite E5; apply in_or_app; right; left; reflexivity). rewrite Hx.
      assert (Rd : forall e, In e d1 -> c < e).
      { intros e Hi. assert (Er : zrange lo (lo + k) = rev d2 ++ [c] ++ rev d1).
        { rewrite <- (rev_involutive (zrange lo (lo + k))), Ed, rev_app_distr. cbn [rev]. rewrite <- app_assoc. reflexivity. }
        clear -Er Hi. apply (In_rev d1) in Hi. apply in_rev in Hi. apply in_rev in Hi. revert Er Hi. generalize (rev d1) as r. generalize (rev d2) as p. generalize (lo + k) as hi. intros hi p. revert lo. induction p as [|a p IH]; intros lo r Er Hi.
        - destruct (Z_lt_le_dec lo hi) as [H|H]; [|rewrite zrange_nil in Er by exact H; discriminate]. rewrite zrange_cons in Er by exact H. cbn in Er. inversion Er; subst. apply zrange_In in Hi. lia.
        - destruct (Z_lt_le_dec lo hi) as [H|H]; [|rewrite zrange_nil in Er by exact H; discriminate]. rewrite zrange_cons in Er by exact H. cbn in Er. inversion Er as [[E1 E2]]. apply (IH (a + 1) r E2 Hi). }
      rewrite E2 in Hy. apply in_app_iff in Hy as [Hy|Hy].
      + rewrite <- E3 in Hy. apply in_concat in Hy as (l & Hl1 & Hl2). apply in_map_iff in Hl1 as (e & <- & He1). rewrite (Cl e y Hl2). specialize (Rd e He1). lia.
      + exfalso. assert (Hy' : dget cm y = Some c) by (apply Cl; rewrite E5; apply in_or_app; left; exact Hy).
        apply (D x y c c); [apply dget_Some_In, Hx|apply dget_Some_In, Hy'|exact He|reflexivity].
  Qed.
End Colour.
