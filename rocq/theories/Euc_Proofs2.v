(** * The search through all tours of the points *)
From Coq Require Import ZArith List Bool Lia Permutation.
From Verif Require Import Base Py Lists2 TSP_Model TSP_Spec TSP_Proofs2 TSP_Proofs3 Euc_Model Euc_Spec Euc_Proofs.
Import ListNotations.
Open Scope Z_scope.

Lemma steps_cons x y q : steps (x :: y :: q) = (x, y) :: steps (y :: q).
Proof. reflexivity. Qed.

Section Search.
  Context {F : Type} (zero inf : F) (add sub : F -> F -> F) (square root : F -> F) (ltb : F -> F -> bool).
  Hypothesis Ho : ordered ltb.
  Context (points : list (F * F)) (M : list (list F)).
  Let n := Z.of_nat (length points).
  Local Notation between := (between zero add sub square root points).
  Local Notation len := (computed_length zero add sub square root points).
  Hypothesis HM : squared (length points) M.
  Hypothesis HE : forall a b, (a < length points)%nat -> (b < length points)%nat -> nth b (nth a M []) zero = wanted zero inf add sub square root points a b.
  Hypothesis Hn : 2 <= n.

  Lemma get_ok i j : 0 <= i < n -> 0 <= j < n -> i <> j -> get_entry M i j = Ret (between i j).
  Proof using HM HE Hn.
    unfold n. intros Hi Hj N. destruct HM as (L & R). unfold get_entry. rewrite (pyget_nth M i []) by lia. cbn [bind]. rewrite (pyget_nth _ j zero) by (rewrite R by lia; lia). f_equal. rewrite HE by lia.
    unfold wanted, Euc_Spec.between, point. destruct (Nat.eqb_spec (Z.to_nat i) (Z.to_nat j)); [lia|]. rewrite Z2Nat.inj_max, Z2Nat.inj_min. reflexivity.
  Qed.

  Lemma fcost_loop p : NoDup p -> (forall x, In x p -> 0 <= x < n) -> forall t,
    foldM (fun total i => do x <- pyget p i; do y <- pyget p (i + 1); do w <- get_entry M x y; Ret (add total w)) (zrange 0 (Z.of_nat (length p) - 1)) t = Ret (fold_left (fun total e => add total (between (fst e) (snd e))) (steps p) t).
  Proof using HM HE Hn.
    intros N R.
    assert (G : forall q1 q2 t, p = q1 ++ q2 -> q2 <> [] -> foldM (fun total i => do x <- pyget p i; do y <- pyget p (i + 1); do w <- get_entry M x y; Ret (add total w)) (zrange (Z.of_nat (length q1)) (Z.of_nat (length p) - 1)) t = Ret (fold_left (fun total e => add total (between (fst e) (snd e))) (steps q2) t)).
    { intros q1 q2. revert q1. induction q2 as [|x q2 IH]; intros q1 t0 E Hq; [congruence|]. destruct q2 as [|y q2].
      - rewrite zrange_nil by (rewrite E, app_length; cbn [length]; lia). reflexivity.
      - assert (Lp : length p = (length q1 + S (S (length q2)))%nat) by (rewrite E, app_length; reflexivity). rewrite zrange_cons by lia. cbn [foldM].
        rewrite (pyget_nth p _ 0) by lia. rewrite (pyget_nth p (Z.of_nat (length q1) + 1) 0) by lia. rewrite Nat2Z.id. replace (Z.to_nat (Z.of_nat (length q1) + 1)) with (S (length q1)) by lia.
        assert (E1 : nth (length q1) p 0 = x) by (rewrite E, app_nth2, Nat.sub_diag by lia; reflexivity).
        assert (E2 : nth (S (length q1)) p 0 = y) by (rewrite E, app_nth2 by lia; replace (S (length q1) - length q1)%nat with 1%nat by lia; reflexivity).
        rewrite E1, E2. cbn [bind]. rewrite get_ok.
        + cbn [bind]. specialize (IH (q1 ++ [x]) (add t0 (between x y))). replace (Z.of_nat (length (q1 ++ [x]))) with (Z.of_nat (length q1) + 1) in IH by (rewrite app_length; cbn [length]; lia).
          rewrite IH; [|rewrite E, <- app_assoc; reflexivity|discriminate]. rewrite steps_cons. reflexivity.
        + apply R. rewrite E. apply in_app_iff. right. left. reflexivity.
        + apply R. rewrite E. apply in_app_iff. right. right. left. reflexivity.
        + intros ->. rewrite E in N. apply NoDup_remove_2 in N. apply N. apply in_app_iff. right. left. reflexivity. }
    intros t. destruct p as [|x p]; [rewrite zrange_nil by (cbn; lia); reflexivity|]. apply (G [] (x :: p) t eq_refl). discriminate.
  Qed.

  Lemma fcost_tour p : tour n p -> fcost add M p n = Ret (len p).
  Proof using HM HE Hn.
    intros T. destruct (tour_facts n p T) as (N & R & L). assert (Hp : p <> []) by (intros ->; cbn in L; lia). unfold fcost. rewrite (pyget_last p Hp), (pyget_first p Hp). cbn [bind].
    rewrite get_ok; [|apply R, last_In, Hp|apply R, hd_In, Hp|apply NoDup_ends; [exact N|lia]]. cbn [bind]. replace n with (Z.of_nat (length p)) by lia. apply fcost_loop; [exact N|]. intros x Hx. apply R, Hx.
  Qed.

  Definition fgood (b : F * list Z) : Prop := b = (inf, []) \/ (tour n (snd b) /\ hd 1 (snd b) = 0 /\ fst b = len (snd b) /\ ltb (fst b) inf = true).
  Definition fle (a b : F) : Prop := ltb b a = false.
  Definition fimproves (path : list Z) (best best' : F * list Z) : Prop :=
    fgood best' /\ fle (fst best') (fst best) /\ forall rest, tour n (path ++ rest) -> fle (fst best') (len (path ++ rest)).

  Lemma fle_refl a : fle a a.
  Proof using Ho. destruct Ho as (R & _ & _). exact (R a). Qed.
  Lemma flt_fle a b : ltb a b = true -> fle a b.
  Proof using Ho. destruct Ho as (_ & _ & A). exact (A a b). Qed.
  Lemma fle_trans a b c : fle a b -> fle b c -> fle a c.
  Proof using Ho. intros H1 H2. destruct Ho as (_ & T & _). exact (T a b c H1 H2). Qed.
  (** less and not greater *)
  Lemma flt_le a b c : ltb a b = true -> fle b c -> ltb a c = true.
  Proof using Ho. intros H1 H2. destruct Ho as (_ & T & _). destruct (ltb a c) eqn:E; [reflexivity|]. rewrite (T b c a H2 E) in H1. discriminate. Qed.

  Lemma fleaf path best : partial n path -> Z.of_nat (length path) = n -> fgood best ->
    exists best', (do total <- fcost add M path n; Ret (if ltb total (fst best) then (total, path) else best)) = Ret best' /\ fimproves path best best'.
  Proof using HM HE Hn Ho.
    intros P L G. assert (T := full_tour n Hn path P L). rewrite (fcost_tour path T). cbn [bind]. eexists. split; [reflexivity|].
    assert (Q : forall rest, tour n (path ++ rest) -> rest = []). { intros rest T'. destruct (tour_facts n _ T') as (_ & _ & L'). rewrite app_length in L'. destruct rest; [reflexivity|cbn in L'; lia]. }
    destruct (ltb (len path) (fst best)) eqn:E.
    - split; [|cbn [fst]; split; [apply flt_fle, E|intros rest T'; rewrite (Q rest T'), app_nil_r; apply fle_refl]].
      right. cbn [fst snd]. split; [exact T|]. split; [apply P|]. split; [reflexivity|]. apply (flt_le _ _ _ E).
      destruct G as [->|(_ & _ & _ & G)]; [apply fle_refl|apply flt_fle, G].
    - split; [exact G|]. split; [apply fle_refl|]. intros rest T'. rewrite (Q rest T'), app_nil_r. exact E.
  Qed.

  Lemma fbacktrack_ok : forall fuel path l last best, partial n path -> l = Z.of_nat (length path) -> (2 <= l -> last = others n (removelast path)) -> l + Z.of_nat fuel = n -> fgood best ->
    exists best', fbacktrack add ltb M n fuel path l last best = Ret best' /\ fimproves path best best'.
  Proof using HM HE Hn Ho.
    induction fuel as [|fuel IH]; intros path l last best P El HL Hf G; cbn [fbacktrack].
    - destruct (Z.eqb_spec l n); [|lia]. apply fleaf; [exact P|lia|exact G].
    - destruct (Z.eqb_spec l n); [lia|]. rewrite (choices_ok n Hn path l last P El HL). cbn [bind].
      assert (Loop : forall cs, incl cs (others n path) -> forall best, fgood best -> exists best', foldM (fun best c => fbacktrack add ltb M n fuel (path ++ [c]) (l + 1) (others n path) best) cs best = Ret best' /\
        fgood best' /\ fle (fst best') (fst best) /\ forall c rest, In c cs -> tour n (path ++ c :: rest) -> fle (fst best') (len (path ++ c :: rest))).
      { induction cs as [|c cs IHc]; intros Sub b Gb; cbn [foldM]; [exists b; split; [reflexivity|]; split; [exact Gb|]; split; [apply fle_refl|intros c rest []]|].
        destruct (IH (path ++ [c]) (l + 1) (others n path) b) as (b1 & E1 & G1 & L1 & T1).
        - apply partial_snoc; [exact P|apply Sub; left; reflexivity].
        - rewrite app_length. cbn [length]. lia.
        - intros _. rewrite removelast_last. reflexivity.
        - lia.
        - exact Gb.
        - rewrite E1. cbn [bind]. destruct (IHc (fun x Hx => Sub x (or_intror Hx)) b1 G1) as (b2 & E2 & G2 & L2 & T2). exists b2. split; [exact E2|]. split; [exact G2|]. split; [exact (fle_trans _ _ _ L2 L1)|].
          intros c' rest [<-|Hc] T; [|apply T2; assumption]. apply (fle_trans _ _ _ L2). specialize (T1 rest). rewrite <- app_assoc in T1. apply T1. exact T. }
      destruct (Loop (others n path) (incl_refl _) best G) as (b & E & G' & L' & T'). exists b. split; [exact E|]. split; [exact G'|]. split; [exact L'|].
      intros rest T. destruct (tour_next n Hn path rest P ltac:(lia) T) as (c & r & -> & Hc). apply T'; assumption.
  Qed.

  Lemma fsearch : exists b, fbacktrack add ltb M n (length points) [] 0 [] (inf, []) = Ret b /\ fgood b /\ forall q, tour n q -> hd 1 q = 0 -> fle (fst b) (len q).
  Proof using HM HE Hn Ho.
    assert (X : exists f, length points = S f) by (exists (pred (length points)); unfold n in Hn; lia). destruct X as (f & Ef). rewrite Ef. cbn [fbacktrack]. destruct (Z.eqb_spec 0 n); [lia|]. unfold choices_at. cbn [Z.eqb bind foldM app].
    destruct (fbacktrack_ok f [0] 1 [0] (inf, []) (partial_0 n Hn) eq_refl ltac:(lia) ltac:(unfold n in *; lia) (or_introl eq_refl)) as (b & E & G & _ & I). change (0 + 1) with 1. rewrite E. cbn [bind]. exists b. split; [reflexivity|]. split; [exact G|].
    intros q T H0. destruct q as [|x q]; [cbn in H0; lia|]. cbn in H0. subst x. apply (I q), T.
  Qed.
End Search.

(** ** Whole numbers as distances *)
Definition whole_square (a : option Z) : option Z := match a with Some x => Some (x ^ 2) | None => None end.
Definition whole_root (a : option Z) : option Z := match a with Some x => Some (Z.sqrt x) | None => None end.
Definition whole (p : Z * Z) : option Z * option Z := (Some (fst p), Some (snd p)).

Lemma whole_distance p q c : 0 <= c -> (fst p - fst q) ^ 2 + (snd p - snd q) ^ 2 = c ^ 2 -> distance wadd wsub whole_square whole_root (whole p) (whole q) = Some c.
Proof.
  intros Hc E. unfold distance, whole. cbn. f_equal. apply Z.sqrt_unique. change (Z.pow_pos (fst q - fst p) 2) with ((fst q - fst p) ^ 2). change (Z.pow_pos (snd q - snd p) 2) with ((snd q - snd p) ^ 2). nia.
Qed.

Lemma whole_distances (pts : list (Z * Z)) (d : Z -> Z -> Z) M :
  (forall i j, 0 <= i < Z.of_nat (length pts) -> 0 <= j < Z.of_nat (length pts) -> 0 <= d i j /\
    (fst (nth (Z.to_nat i) pts (0, 0)) - fst (nth (Z.to_nat j) pts (0, 0))) ^ 2 + (snd (nth (Z.to_nat i) pts (0, 0)) - snd (nth (Z.to_nat j) pts (0, 0))) ^ 2 = d i j ^ 2) ->
  euclidean_distance_matrix (Some 0) None wadd wsub whole_square whole_root (map whole pts) = Ret M ->
  distances (Z.of_nat (length pts)) d M.
Proof.
  intros H E. destruct (euclid_ok (Some 0) None wadd wsub whole_square whole_root (map whole pts)) as (M' & E' & (Q1 & Q2) & W). rewrite E in E'. injection E' as <-. rewrite map_length in *.
  split; [lia|]. split; [intros i Hi; rewrite Q2 by lia; lia|]. intros i j Hi Hj N. rewrite (nth_indep _ None (Some 0)) by (rewrite Q2; lia). rewrite W by lia.
  unfold wanted. destruct (Nat.eqb_spec (Z.to_nat i) (Z.to_nat j)); [lia|]. change (Some 0, Some 0) with (whole (0, 0)). rewrite !map_nth.
  destruct (H i j Hi Hj) as (H0 & H1). apply whole_distance; [exact H0|].
  destruct (Nat.max_spec (Z.to_nat i) (Z.to_nat j)) as [(L & ->)|(L & ->)]; [rewrite Nat.min_l by lia|rewrite Nat.min_r by lia]; nia.
Qed.

(** On these numbers the search is that of TSP_Model. *)
Lemma fbacktrack_whole M n : forall fuel path l last best, fbacktrack wadd wltb M n fuel path l last best = backtrack M n fuel path l last best.
Proof.
  induction fuel as [|fuel IH]; intros path l last best; [reflexivity|]. cbn [fbacktrack backtrack]. change (fcost wadd M path n) with (cost M path n). destruct (l =? n); [reflexivity|].
  destruct (choices_at n path l last) as [cs| |]; try reflexivity. cbn [bind]. revert best. generalize cs at 2 4 as cs'. induction cs' as [|c cs' IHc]; intros best; [reflexivity|]. cbn [foldM]. rewrite IH. destruct (backtrack M n fuel (path ++ [c]) (l + 1) cs best); try reflexivity. cbn [bind]. apply IHc.
Qed.
