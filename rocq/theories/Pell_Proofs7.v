(** * Families of solutions, the Farey search, small right-hand sides *)
From Coq Require Import ZArith List Bool Lia Permutation.
From Verif Require Import Base Py Loop Core_Model Core_Spec Classify_Model Classify_Proofs Classify_Proofs2 Pell_Model Pell_Proofs Pell_Proofs2 Pell_Proofs3 Pell_Proofs4 Pell_Proofs5 Pell_Proofs6.
Import ListNotations.
Open Scope Z_scope.

Section family.
  Context (D u v B : Z) (p q : Z).
  Hypothesis (HD : 2 <= D) (Hu : 2 <= u) (Hv : 1 <= v) (Hp : 0 <= p) (Hq : 1 <= q).
  Local Notation pw := (power D (p, q) (u, v)).

  Lemma power_pos k : 0 <= fst (pw k) /\ 1 <= snd (pw k).
  Proof using All. induction k as [|k (I1 & I2)]; [cbn; lia|]. cbn [power]. unfold times. cbn [fst snd]. split; [|]; nia. Qed.
  Lemma power_incr k : fst (pw k) < fst (pw (S k)) /\ snd (pw k) < snd (pw (S k)).
  Proof using All. destruct (power_pos k) as (I1 & I2). cbn [power]. unfold times. cbn [fst snd]. split; [|nia]. assert (1 <= snd (pw k) * v * D) by nia. nia. Qed.
  Lemma power_mono i j : (i <= j)%nat -> fst (pw i) <= fst (pw j) /\ snd (pw i) <= snd (pw j).
  Proof using All. intros H. induction H as [|j H IH]; [lia|]. pose proof (power_incr j). lia. Qed.
  Lemma power_grow k : Z.of_nat k < snd (pw k).
  Proof using All. induction k as [|k IH]; [cbn; lia|]. pose proof (power_incr k). lia. Qed.

  Lemma family_ok fuel : B + 1 < 2 ^ Z.of_nat fuel -> exists l, run (family_step D B u v) fuel (p, q, []) = Ret l /\
    forall x y, In (x, y) l <-> x <= B /\ y <= B /\ exists k, (x, y) = pw k.
  Proof using All.
    intros Hf. apply (run_count (family_step D B u v) (fun z s => exists k, z = Z.max 0 (B + 1 - Z.of_nat k) /\ s = (fst (pw k), snd (pw k), map pw (seq 0 k)) /\ forall j, (j < k)%nat -> fst (pw j) <= B /\ snd (pw j) <= B)
      (fun o => exists l, o = Ret l /\ forall x y, In (x, y) l <-> x <= B /\ y <= B /\ exists k, (x, y) = pw k)) with (k := Z.max 0 (B + 1)).
    - intros z s (k & -> & -> & Hk). unfold family_step. destruct (Z.leb_spec (fst (pw k)) B) as [L1|L1]; cbn [andb]; [destruct (Z.leb_spec (snd (pw k)) B) as [L2|L2]|].
      + exists (Z.max 0 (B + 1 - Z.of_nat (S k))). split; [pose proof (power_grow k); lia|]. exists (S k). split; [reflexivity|]. split.
        * rewrite seq_S, map_app. cbn [map Nat.add power]. unfold times at 1 2. cbn [fst snd]. rewrite <- surjective_pairing. reflexivity.
        * intros j Hj. destruct (Nat.eq_dec j k) as [-> |]; [lia|apply Hk; lia].
      + eexists. split; [reflexivity|]. intros x y. rewrite in_map_iff. split.
        * intros (j & Ej & Hj). apply in_seq in Hj. destruct (Hk j ltac:(lia)) as (A1 & A2). rewrite Ej in A1, A2. cbn [fst snd] in *. repeat split; auto. exists j. auto.
        * intros (X & Y & j & Ej). exists j. split; [auto|]. apply in_seq. destruct (Nat.lt_ge_cases j k); [lia|exfalso]. pose proof (power_mono k j H) as M. rewrite <- Ej in M. cbn [fst snd] in M. lia.
      + eexists. split; [reflexivity|]. intros x y. rewrite in_map_iff. split.
        * intros (j & Ej & Hj). apply in_seq in Hj. destruct (Hk j ltac:(lia)) as (A1 & A2). rewrite Ej in A1, A2. cbn [fst snd] in *. repeat split; auto. exists j. auto.
        * intros (X & Y & j & Ej). exists j. split; [auto|]. apply in_seq. destruct (Nat.lt_ge_cases j k); [lia|exfalso]. pose proof (power_mono k j H) as M. rewrite <- Ej in M. cbn [fst snd] in M. lia.
    - exists O. split; [lia|]. split; [reflexivity|intros j Hj; lia].
    - lia.
  Qed.
End family.

(** ** The Farey (Stern-Brocot) search reaches the least solution for N = 1 and N = -1 *)
Lemma farey_sound fuel D N a b : farey fuel D N = Ret (a, b) -> sols D N a b.
Proof.
  unfold farey. intros E. pose proof (run_partial (farey_step D N) (fun _ => True) (fun o => forall a b, o = Ret (a, b) -> sols D N a b)) as R.
  destruct (R ltac:(intros (((n1, d1), n2), d2) _; unfold farey_step; destruct (Z.eqb_spec N ((n1 + n2) * (n1 + n2) - D * (d1 + d2) * (d1 + d2))) as [X|X];
    [intros a' b' Y; injection Y as <- <-; unfold sols; lia|destruct (0 <? _); exact I]) fuel (0, 1, 1, 0) I) as [X|X]; [congruence|apply X, E].
Qed.

Section farey.
  Context (D sg x y : Z).
  Hypothesis (HD : 2 <= D) (ND : nonsquare D) (Hsg : sg = 1 \/ sg = -1) (Hs : least_solution D sg x y).

  Definition fstate (z : Z) (s : Z * Z * Z * Z) : Prop :=
    let '(n1, d1, n2, d2) := s in exists a b, 1 <= a /\ 1 <= b /\ z = a + b /\ x = a * n1 + b * n2 /\ y = a * d1 + b * d2 /\
      0 <= n1 /\ 1 <= d1 /\ 1 <= n2 /\ 0 <= d2 /\ n2 * d1 - n1 * d2 = 1.

  Lemma nonzero_norm a b : 1 <= b -> a * a - D * b * b <> 0.
  Proof using ND HD.
    intros Hb E. assert (X : (b * b | a * a)) by (exists D; lia).
    destruct (Z.eq_dec a 0) as [-> |Na]; [apply (ND 0); nia|]. assert (Y : (b | Z.abs a)).
    { apply (pow_divide b (Z.abs a) 2); try lia. rewrite !Z.pow_2_r, Z.abs_square. exact X. }
    apply Z.divide_abs_r in Y as (c & ->). apply (ND c). apply (Z.mul_reg_r _ _ (b * b)); nia.
  Qed.

  Lemma farey_step_ok z s : fstate z s -> match farey_step D sg s with inl s' => exists z', 0 <= z' < z /\ fstate z' s' | inr o => o = Ret (x, y) end.
  Proof using All.
    destruct s as (((n1, d1), n2), d2). intros (a & b & Ha & Hb & -> & Ex & Ey & P1 & P2 & P3 & P4 & Dt). unfold farey_step.
    destruct Hs as (Hx & Hy & S & Least). set (m := n1 + n2). set (k := d1 + d2). assert (Hm : 1 <= m) by (unfold m; lia). assert (Hk : 1 <= k) by (unfold k; lia).
    assert (Ly : k <= y) by (unfold k; nia). assert (Lx : m <= x) by (unfold m; nia).
    assert (Ed : x * k - y * m = b - a). { rewrite Ex, Ey. unfold k, m. transitivity ((b - a) * (n2 * d1 - n1 * d2)); [ring|rewrite Dt; ring]. }
    destruct (Z.eqb_spec sg (m * m - D * k * k)) as [E|E].
    - destruct (Least m k Hm Hk ltac:(unfold sols; lia)) as (L1 & L2). f_equal. f_equal; lia.
    - pose proof (nonzero_norm m k Hk) as NZ. set (t := m * m - D * k * k) in *. unfold sols in S.
      assert (Nab : a <> b).
      { intros ->. assert (x = b * m /\ y = b * k) as (X1 & X2) by (unfold m, k; lia). assert (b * b * t = sg) by (unfold t; rewrite <- S, X1, X2; ring).
        assert (1 <= b * b) by nia. assert (b = 1) by (clear - H Hsg Hb H0 NZ; destruct Hsg; subst; nia). subst b. apply E. lia. }
      destruct (Z.ltb_spec 0 t) as [T|T].
      + assert (Hlt : x * k - y * m < 0).
        { destruct Hsg as [-> | ->].
          - pose proof (same_side D x y m k 1 t ltac:(lia) ltac:(lia) ltac:(lia) ltac:(lia) T ltac:(auto) S ltac:(unfold t; lia)). lia.
          - pose proof (opposite D x y m k (-1) t ltac:(lia) ltac:(lia) ltac:(lia) ltac:(lia) T ltac:(auto) S ltac:(unfold t; lia)). lia. }
        exists ((a - b) + b). split; [lia|]. exists (a - b), b. unfold m, k in *. repeat split; try lia.
      + assert (Hlt : 0 < x * k - y * m).
        { destruct Hsg as [-> | ->].
          - pose proof (opposite D x y m k 1 (- t) ltac:(lia) ltac:(lia) ltac:(lia) ltac:(lia) ltac:(lia) ltac:(auto) S ltac:(unfold t; lia)). lia.
          - pose proof (same_side D x y m k (-1) (- t) ltac:(lia) ltac:(lia) ltac:(lia) ltac:(lia) ltac:(lia) ltac:(auto) S ltac:(unfold t; lia)). lia. }
        exists (a + (b - a)). split; [lia|]. exists a, (b - a). unfold m, k in *. repeat split; try lia.
  Qed.

  Lemma farey_ok fuel : x + y < 2 ^ Z.of_nat fuel -> farey fuel D sg = Ret (x, y).
  Proof using All.
    intros Hf. unfold farey. apply (run_count (farey_step D sg) fstate (fun o => o = Ret (x, y)) farey_step_ok fuel (y + x)); [|lia].
    destruct Hs as (Hx & Hy & _). exists y, x. repeat split; lia.
  Qed.
End farey.

(** ** pell_small and its companion *)
Lemma small_start_sound fuel D N c : small_start fuel D N = Ret c -> 0 < D /\ nonsquare D /\ QuadraticIrrational fuel D 0 1 = Ret c.
Proof.
  unfold small_start. destruct (Z.leb_spec D 0) as [L|L]; cbn [bind]; [discriminate|]. destruct (is_square_ok D) as [(r & Hr & E & ->)|(NS & ->)]; cbn [bind truthy].
  - destruct (Z.eqb_spec r 0); [nia|]. cbn [negb orb]. discriminate.
  - cbn [orb]. destruct (D * D <=? N); [discriminate|]. auto.
Qed.
Lemma small_start_ok fuel D N : 2 <= D -> nonsquare D -> N < D * D -> small_start fuel D N = QuadraticIrrational fuel D 0 1.
Proof.
  intros HD ND HN. unfold small_start. destruct (Z.leb_spec D 0); [lia|]. rewrite (is_square_bad D ltac:(lia) ND). cbn [bind truthy orb]. destruct (Z.leb_spec (D * D) N); [lia|]. reflexivity.
Qed.

Lemma pell_small_sound fuel D N m l : pell_small fuel D N m = Ret l -> forall x y, In (x, y) l -> sols D N x y.
Proof.
  unfold pell_small. destruct (small_start fuel D N) as [c|ex|]; cbn [bind]; try discriminate. intros E; injection E as <-. intros x y Hin. apply filter_In in Hin as (_ & H). cbn [fst snd] in H. apply Z.eqb_eq in H. exact H.
Qed.
Lemma pell_small_ok fuel D N m : 2 <= D -> nonsquare D -> integer_sqrt D = Ret (Z.sqrt D) -> 4 * D < 2 ^ Z.of_nat fuel -> N = 1 \/ N = -1 ->
  exists l, pell_small fuel D N m = Ret l /\ forall x y, In (x, y) l <-> exists k, (k < m)%nat /\ x = A D (Z.sqrt D) k /\ y = B D (Z.sqrt D) k /\ sols D N x y.
Proof.
  intros HD ND E Hf HN. destruct (object_ok D fuel HD ND E Hf) as (L & L1 & L2 & L3 & L4 & EO). destruct (sqrt_range D HD ND) as (Hr & Hd). unfold pell_small. rewrite small_start_ok by (auto; nia). rewrite EO. cbn [bind].
  eexists. split; [reflexivity|]. intros x y. rewrite filter_In. rewrite (convergents_ok D _ Hr Hd L L1 L3 L4), in_map_iff. cbn [fst snd]. rewrite Z.eqb_eq. split.
  - intros ((k & Ek & Hk) & S). apply in_seq in Hk. injection Ek as <- <-. exists k. repeat split; auto; lia.
  - intros (k & Hk & -> & -> & S). split; [exists k; split; [reflexivity|apply in_seq; lia]|exact S].
Qed.

Lemma companion_sound fuel D N l : pell_small_minimal_positive_solutions fuel D N = Ret l -> forall x y, In (x, y) l -> sols D N x y.
Proof.
  unfold pell_small_minimal_positive_solutions. destruct (small_start fuel D N) as [c|ex|]; cbn [bind]; try discriminate. destruct (run _ fuel _) as [terms|ex|]; cbn [bind]; try discriminate.
  destruct (foldM _ terms []) as [ss|ex|] eqn:Ef; cbn [bind]; try discriminate. intros E; injection E as <-. intros x y Hin. apply (proj1 (pair_sort_In _ _)) in Hin.
  revert Ef. assert (G : forall ts acc, (forall x y, In (x, y) acc -> sols D N x y) -> foldM (fun sols '(x, y) =>
    let k := x * x - D * y * y in
    do m <- pymod N k;
    if negb (m =? 0) then Ret sols
    else
      do q <- pydiv N k;
      do f <- is_square q;
      Ret (match f with Some f => sols ++ [(f * x, f * y)] | None => sols end)) ts acc = Ret ss -> sols D N x y).
  { induction ts as [|(a, b) ts IH]; intros acc Hacc E; cbn [foldM] in E; [injection E as ->; apply Hacc, Hin|]. cbv zeta in E. unfold pymod, pydiv in E. set (k := a * a - D * b * b) in *.
    destruct (Z.eqb_spec k 0) as [K|K]; cbn [bind] in E; [discriminate|]. destruct (Z.eqb_spec (N mod k) 0) as [M|M]; cbn [negb bind] in E; [|apply (IH acc); assumption].
    destruct (is_square_ok (N / k)) as [(f & Hf & Ef & Eq)|(_ & Eq)]; rewrite Eq in E; cbn [bind] in E; [|apply (IH acc); assumption].
    apply (IH (acc ++ [(f * a, f * b)])); [|exact E]. intros x' y' Hi. apply in_app_iff in Hi as [Hi|[X|[]]]; [apply Hacc, Hi|]. injection X as <- <-. unfold sols.
    transitivity (f * f * k); [unfold k; ring|]. rewrite Ef. pose proof (Z.div_mod N k K). lia. }
  apply G. intros ? ? [].
Qed.
