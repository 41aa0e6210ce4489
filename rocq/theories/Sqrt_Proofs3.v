(** * Square roots modulo n; quadratic congruences; Fibonacci primitive roots *)
From Coq Require Import ZArith List Bool Lia Znumtheory Sorted Permutation.
From Verif Require Import Base Py Lists Lists2 Sums NT NT_Euler Core_Model Core_Spec Core_Props Zn_Model Zn_Props Factor_Model Factor_Spec Factor_Proofs Div_Proofs Div_Proofs2 Arith_Spec Arith_Proofs
  NT_Cong NT_Prim NT_Prim2 Ord_Spec Ord_Model Ord_Proofs Ord_Proofs2 QR_Spec NT_QR QR_Proofs Sqrt_Model Sqrt_Proofs Sqrt_Proofs2.
Import ListNotations.
Open Scope Z_scope.

Lemma Forall2_map_eq {A B C} (f : A -> C) (g : B -> C) l l' : Forall2 (fun x y => f x = g y) l l' -> map f l = map g l'.
Proof. intros F. induction F as [|x y l l' E F IH]; [reflexivity|]. cbn [map]. congruence. Qed.

Section N.
Context (fact : Z -> outcome (list (Z * Z))) (draw : Z -> nat -> Z) (fuel : nat).

(** The list of pairs for a prime power. *)
Definition pairs_ok (a : Z) (pk : Z * Z) (c : list (Z * Z)) : Prop :=
  NoDup c /\ forall r m, In (r, m) c <-> m = fst pk ^ snd pk /\ 0 <= r < m /\ cg m (r * r) a.

Lemma root_pairs_ok a p k : prime p -> 1 <= k -> lucky (draw p) fuel p -> exists c, root_pairs draw fuel a (p, k) = Ret c /\ pairs_ok a (p, k) c.
Proof.
  intros Hp Hk Lk. unfold root_pairs. destruct (sqrts_mod_pk_ok (draw p) fuel a p k Hp Hk Lk) as (l & E & S & H). rewrite E. cbn [bind]. eexists. split; [reflexivity|]. split.
  - apply NoDup_map_inj; [apply sorted_NoDup; exact S|]. intros x y _ _ Exy. injection Exy as Exy. exact Exy.
  - intros r m. rewrite in_map_iff. cbn [fst snd]. split.
    + intros (x & Ex & Hx). injection Ex as <- <-. apply H in Hx. tauto.
    + intros (-> & Hr). exists r. split; [reflexivity|apply H; exact Hr].
Qed.

(** Choosing one root for each prime power. *)
Lemma systems a l congs : Forall2 (pairs_ok a) l congs -> forall s, In s (product congs) <-> (map snd s = map (fun pk => fst pk ^ snd pk) l /\ forall r m, In (r, m) s -> 0 <= r < m /\ cg m (r * r) a).
Proof.
  intros F s. rewrite product_In. revert s. induction F as [|pk c l congs (_ & Hc) F IH]; intros s.
  - split; [intros K; inversion K; split; [reflexivity|intros r m []]|]. intros (E & _). destruct s; [constructor|discriminate].
  - cbn [map]. split.
    + intros K. inversion K as [|(r, m) ? s' ? H1 K1]; subst. apply IH in K1 as (E & H2). apply Hc in H1 as (Em & H1). split; [cbn [map snd]; rewrite E, Em; reflexivity|]. intros r' m' [Eq|Hin]; [injection Eq as <- <-; exact H1|apply H2; exact Hin].
    + intros (E & H). destruct s as [|(r, m) s]; [discriminate|]. cbn [map snd] in E. injection E as Em E. constructor; [apply Hc; split; [exact Em|]; apply H; left; reflexivity|]. apply IH. split; [exact E|]. intros r' m' Hin. apply H. right. exact Hin.
Qed.

Lemma systems_NoDup a l congs : Forall2 (pairs_ok a) l congs -> NoDup (product congs).
Proof. intros F. apply product_NoDup. induction F as [|pk c l congs (Hn & _) F IH]; constructor; assumption. Qed.

Definition lucky_for (n : Z) : Prop := forall p, prime p -> (p | n) -> lucky (draw p) fuel p.

Lemma sqrts_mod_n_ok a n f : 2 <= n -> fac_arg fact n f -> lucky_for n ->
  exists l, sqrts_mod_n fact draw fuel a n f = Ret l /\ StronglySorted Z.lt l /\ forall x, In x l <-> 0 <= x < n /\ cg n (x * x) a.
Proof.
  intros Hn Hf Lk. unfold sqrts_mod_n.
  assert (E : exists l, match f with Some l => Ret l | None => fact n end = Ret l /\ factorization n l) by (destruct f as [l|]; [exists l; auto|exact Hf]). destruct E as (l & -> & F). cbn [bind].
  assert (Ap : forall p k, In (p, k) l -> prime p /\ 1 <= k /\ (p | n)).
  { intros p k Hin. destruct F as (F1 & F2 & F3) eqn:EF. destruct (F2 p k Hin) as (Hp & Hk). split; [exact Hp|]. split; [exact Hk|]. apply (factorization_prime_divisor n l p F Hp). apply in_map_iff. exists (p, k). auto. }
  destruct (mapM_ok (root_pairs draw fuel a) (pairs_ok a) l) as (congs & -> & FP).
  { intros (p, k) Hin. destruct (Ap p k Hin) as (Hp & Hk & D). apply root_pairs_ok; [exact Hp|exact Hk|apply Lk; assumption]. }
  cbn [bind].
  assert (Fin : forall vs, NoDup vs -> (forall x, In x vs <-> 0 <= x < n /\ cg n (x * x) a) -> exists l, Ret (zsort vs) = Ret l /\ StronglySorted Z.lt l /\ forall x, In x l <-> 0 <= x < n /\ cg n (x * x) a).
  { intros vs ND H. eexists. split; [reflexivity|]. split; [apply zsort_strict; exact ND|]. intros x. rewrite zsort_In. apply H. }
  destruct l as [|(p1, k1) l]; [exfalso; destruct F as (_ & _ & V); cbn in V; lia|]. inversion FP as [|? c1 ? congs' P1 FP']; subst.
  destruct l as [|(p2, k2) l].
  - inversion FP'; subst. cbn [bind]. destruct P1 as (ND1 & H1). cbn [fst snd] in H1. assert (En : n = p1 ^ k1) by (destruct F as (_ & _ & V); cbn in V; lia). apply Fin.
    + apply NoDup_map_inj; [exact ND1|]. intros (r, m) (r', m') Hr Hr' E. cbn in E. apply H1 in Hr as (-> & _). apply H1 in Hr' as (-> & _). congruence.
    + intros x. rewrite in_map_iff, En. split.
      * intros ((r, m) & <- & Hr). apply H1 in Hr as (-> & Hr). exact Hr.
      * intros Hx. exists (x, p1 ^ k1). split; [reflexivity|]. apply H1. auto.
  - inversion FP' as [|? c2 ? congs2 P2 FP2]; subst. set (L := (p1, k1) :: (p2, k2) :: l) in *. set (C := c1 :: c2 :: congs2) in *. set (ms := map (fun pk => fst pk ^ snd pk) L).
    assert (M2 : forall m, In m ms -> 2 <= m). { intros m Hm. apply in_map_iff in Hm as ((p, k) & <- & Hin). destruct (Ap p k Hin) as (Hp & Hk & _). pose proof (prime_ge2 p Hp). cbn [fst snd]. assert (p ^ 1 <= p ^ k) by (apply Z.pow_le_mono_r; lia). rewrite Z.pow_1_r in *. lia. }
    assert (Ep : zprod ms = n) by (unfold ms; rewrite <- fac_value_zprod; destruct F as (_ & _ & V); exact V).
    assert (Each : forall s, In s (product C) -> exists data x, crt_preconditioning_data ms = Ret data /\ chinese_preconditioned s data = Ret x /\ 0 <= x < n /\ solves x s).
    { intros s Hs. apply (systems a L C FP) in Hs as (Es & _). destruct (C06_chinese_preconditioned s (p1 ^ k1) (map (fun pk => fst pk ^ snd pk) ((p2, k2) :: l)) Es) as (data & x & E1 & E2 & Hx & Sx & _).
      - pose proof (M2 (p1 ^ k1) ltac:(left; reflexivity)). lia.
      - intros m Hm. apply M2. right. exact Hm.
      - apply (fac_coprime n L F).
      - exists data, x. change (p1 ^ k1 :: map (fun pk => fst pk ^ snd pk) ((p2, k2) :: l)) with ms in *. rewrite Ep in Hx. auto. }
    assert (Data : exists data, crt_preconditioning_data ms = Ret data). { destruct (C06_chinese_preconditioned (map (fun m => (0, m)) ms) (p1 ^ k1) (map (fun pk => fst pk ^ snd pk) ((p2, k2) :: l))) as (data & x & E1 & _).
      - rewrite map_map. cbn [snd]. rewrite map_id. reflexivity.
      - pose proof (M2 (p1 ^ k1) ltac:(left; reflexivity)). lia.
      - intros m Hm. apply M2. right. exact Hm.
      - apply (fac_coprime n L F).
      - exists data. exact E1. }
    destruct Data as (data & ED). rewrite ED. cbn [bind].
    destruct (mapM_ok (fun system => chinese_preconditioned system data) (fun s x => 0 <= x < n /\ solves x s) (product C)) as (vs & -> & FV).
    { intros s Hs. destruct (Each s Hs) as (data' & x & E1 & E2 & H). rewrite ED in E1. injection E1 as <-. exists x. auto. }
    cbn [bind].
    assert (Sys : forall s x, In s (product C) -> solves x s -> s = map (fun m => (x mod m, m)) ms).
    { intros s x Hs Sx. apply (systems a L C FP) in Hs as (Es & Hr). fold ms in Es. rewrite <- Es. rewrite map_map. rewrite <- (map_id s) at 1. apply map_ext_in. intros (r, m) Hin. cbn [snd]. f_equal. destruct (Hr r m Hin) as (Br & _). symmetry. apply cg_eq; [exact Br|]. apply cg_div. apply Sx. exact Hin. }
    assert (InV : forall x, In x vs <-> exists s, In s (product C) /\ 0 <= x < n /\ solves x s).
    { intros x. split.
      - intros Hx. clear - FV Hx. induction FV as [|s y ss vs H FV IH]; [destruct Hx|]. destruct Hx as [<-|Hx]; [exists s; split; [left; reflexivity|exact H]|]. destruct (IH Hx) as (s' & Hs' & H'). exists s'. split; [right; exact Hs'|exact H'].
      - intros (s & Hs & Bx & Sx). assert (K : exists y, In y vs /\ 0 <= y < n /\ solves y s). { clear - FV Hs. induction FV as [|s' y ss vs H FV IH]; [destruct Hs|]. destruct Hs as [->|Hs]; [exists y; split; [left; reflexivity|exact H]|]. destruct (IH Hs) as (z & Hz & H'). exists z. split; [right; exact Hz|exact H']. }
        destruct K as (y & Hy & By & Sy). assert (x = y); [|subst; exact Hy]. apply (cg_small n); [|exact Bx|exact By]. apply (cg_fac n L x y F). intros p k Hin. pose proof (Sys s x Hs Sx) as E1. pose proof (Sys s y Hs Sy) as E2. rewrite E1 in E2.
        assert (Hm : In (p ^ k) ms) by (apply in_map_iff; exists (p, k); auto). clear - E2 Hm. revert E2 Hm. generalize ms. induction ms0 as [|m ms0 IH]; intros E [].
        + injection E as E _. subst m. constructor. exact E.
        + injection E as _ E. apply IH; assumption. }
    apply Fin.
    + assert (Inj : forall s s' x, In s (product C) -> In s' (product C) -> solves x s -> solves x s' -> s = s') by (intros s s' x Hs Hs' S1 S2; rewrite (Sys s x Hs S1), (Sys s' x Hs' S2); reflexivity).
      pose proof (systems_NoDup a L C FP) as NP. clear - FV Inj NP. induction FV as [|s x ss vs (Bx & Sx) FV IH]; [constructor|]. inversion NP as [|? ? N1 N2]; subst. constructor.
      * intros Hx. apply N1. assert (K : exists s', In s' ss /\ solves x s'). { clear - FV Hx. induction FV as [|s' y ss vs H FV IH]; [destruct Hx|]. destruct Hx as [<-|Hx]; [exists s'; split; [left; reflexivity|apply H]|]. destruct (IH Hx) as (s2 & Hs & H'). exists s2. split; [right; exact Hs|exact H']. }
        destruct K as (s' & Hs' & Ss'). rewrite (Inj s s' x); [exact Hs'|left; reflexivity|right; exact Hs'|exact Sx|exact Ss'].
      * apply IH; [|exact N2]. intros s1 s2 y H1 H2. apply Inj; right; assumption.
    + intros x. rewrite InV. split.
      * intros (s & Hs & Bx & Sx). split; [exact Bx|]. apply (cg_fac n L _ _ F). intros p k Hin. pose proof (Sys s x Hs Sx) as Es. apply (systems a L C FP) in Hs as (_ & Hr). assert (Hm : In (x mod p ^ k, p ^ k) s). { rewrite Es. apply in_map_iff. exists (p ^ k). split; [reflexivity|]. apply in_map_iff. exists (p, k). auto. }
        destruct (Hr _ _ Hm) as (_ & C1). rewrite cg_mod in C1. exact C1.
      * intros (Bx & C1). exists (map (fun m => (x mod m, m)) ms). split; [|split; [exact Bx|]].
        -- apply (systems a L C FP). split; [rewrite map_map; cbn [snd]; rewrite map_id; reflexivity|]. intros r m Hin. apply in_map_iff in Hin as (m' & E' & Hm). injection E' as <- <-. pose proof (M2 m' Hm). split; [apply Z.mod_pos_bound; lia|]. rewrite cg_mod. apply in_map_iff in Hm as ((p, k) & <- & Hin). apply (proj1 (cg_fac n L _ _ F) C1 p k Hin).
        -- intros r m Hin. apply in_map_iff in Hin as (m' & E' & Hm). injection E' as <- <-. apply cg_div. rewrite cg_mod. reflexivity.
Qed.

(** ** Quadratic congruences *)
Lemma split_ok a n : a <> 0 -> 2 <= n -> forall d, d = Z.gcd n a -> exists a1 a2, run (split_step n) (bits (Z.abs a)) (1, a, d) = Ret (a1, a2) /\ 0 < a1 /\ a1 * a2 = a /\ Z.gcd n a2 = 1.
Proof.
  intros Ha Hn d Ed. apply (run_rule (split_step n) (fun s => let '(a1, a2, d) := s in 0 < a1 /\ a1 * a2 = a /\ d = Z.gcd n a2) (fun s => let '(a1, a2, d) := s in Z.abs a2) (fun r => exists a1 a2, r = Ret (a1, a2) /\ 0 < a1 /\ a1 * a2 = a /\ Z.gcd n a2 = 1)).
  - intros ((a1, a2), e) (P1 & Em & Ee). unfold split_step. destruct (Z.ltb_spec 1 e) as [L|L].
    + rewrite C01_gcd. assert (D : (e | a2)) by (rewrite Ee; apply Z.gcd_divide_r). destruct D as (c & Ec). rewrite Ec, Z.div_mul by lia. assert (c <> 0) by nia. split; [split; [nia|]; split; [rewrite <- Em, Ec; ring|reflexivity]|]. rewrite Z.abs_mul, (Z.abs_eq e) by lia. nia.
    + exists a1, a2. split; [reflexivity|]. split; [exact P1|]. split; [exact Em|]. assert (Z.gcd n a2 <> 0) by (intros X; apply Z.gcd_eq_0_l in X; lia). pose proof (Z.gcd_nonneg n a2). lia.
  - split; [lia|]. split; [ring|exact Ed].
  - apply bits_spec.
Qed.

Lemma mapM_mod n (f : Z -> Z) l : n <> 0 -> mapM (fun y => pymod (f y) n) l = Ret (map (fun y => f y mod n) l).
Proof. intros Hn. apply mapM_ret. intros x _. unfold pymod. destruct (Z.eqb_spec n 0); [contradiction|reflexivity]. Qed.

Lemma quadratic_congruence_ok a b c n f : 2 <= n -> a <> 0 -> fac_arg fact n f -> (forall m, n <= m <= 4 * Z.abs a * n -> factors fact m) -> lucky_for (4 * a * n) ->
  exists l, quadratic_congruence fact draw fuel (a, b, c) n f = Ret l /\ StronglySorted Z.lt l /\ forall x, In x l <-> 0 <= x < n /\ cg n (a * x * x + b * x + c) 0.
Proof.
  intros Hn Ha Hf HF Lk. unfold quadratic_congruence.
  assert (E : exists l, match f with Some l => Ret l | None => fact n end = Ret l /\ factorization n l) by (destruct f as [l|]; [exists l; auto|exact Hf]). destruct E as (l & -> & F). cbn [bind]. rewrite C01_gcd. cbn [bind]. set (disc := b * b - 4 * a * c).
  assert (Fin : forall vs, NoDup vs -> (forall x, In x vs <-> 0 <= x < n /\ cg n (a * x * x + b * x + c) 0) -> exists l, Ret (zsort vs) = Ret l /\ StronglySorted Z.lt l /\ forall x, In x l <-> 0 <= x < n /\ cg n (a * x * x + b * x + c) 0).
  { intros vs ND H. eexists. split; [reflexivity|]. split; [apply zsort_strict; exact ND|]. intros x. rewrite zsort_In. apply H. }
  assert (Sq : forall x y, y = 2 * a * x + b -> y * y - disc = 4 * a * (a * x * x + b * x + c)) by (intros x y ->; unfold disc; ring).
  destruct (Z.eqb_spec (Z.gcd (2 * a) n) 1) as [G|NG].
  - destruct (sqrts_mod_n_ok disc n (Some l) Hn F) as (ys & -> & S & H). { intros p Hp D. apply Lk; [exact Hp|]. apply Z.divide_mul_r. exact D. }
    cbn [bind]. destruct (C03_inverse_mod (2 * a) n ltac:(lia) G) as (v & -> & Hv & Ev & _). cbn [bind]. rewrite mapM_mod by lia. cbn [bind]. assert (Cv : cg n (2 * a * v) 1) by (constructor; rewrite Ev, Z.mod_small by lia; reflexivity).
    assert (G2 : Z.gcd 2 n = 1). { rewrite Z.gcd_comm in G |- *. apply (gcd_1_div n (2 * a)); [apply Z.divide_factor_l|exact G]. } assert (G4 : Z.gcd (4 * a) n = 1). { replace (4 * a) with (2 * (2 * a)) by ring. apply gcd_1_mul; assumption. }
    assert (Inv : forall x y, cg n (2 * a * x) (y - b) <-> cg n x ((y - b) * v)).
    { intros x y. split; intros C1.
      - rewrite <- C1. replace (2 * a * x * v) with (2 * a * v * x) by ring. rewrite Cv, Z.mul_1_l. reflexivity.
      - rewrite C1. replace (2 * a * ((y - b) * v)) with (2 * a * v * (y - b)) by ring. rewrite Cv, Z.mul_1_l. reflexivity. }
    assert (Root : forall x y, cg n (2 * a * x) (y - b) -> (cg n (y * y) disc <-> cg n (a * x * x + b * x + c) 0)).
    { intros x y C1. assert (Cy : cg n y (2 * a * x + b)) by (rewrite C1; constructor; f_equal; ring). rewrite Cy. rewrite cg_div, (Sq x _ eq_refl), <- cg_0. split; [|intros ->; constructor; f_equal; ring]. intros C2. apply (cg_cancel n (4 * a) _ _ G4). rewrite C2. constructor. f_equal. ring. }
    apply Fin.
    + apply NoDup_map_inj; [apply sorted_NoDup; exact S|]. intros y y' Hy Hy' E. apply H in Hy as (Hy & _). apply H in Hy' as (Hy' & _). assert (C1 : cg n ((y - b) * v) ((y' - b) * v)) by (constructor; exact E).
      apply (cg_small n); [|exact Hy|exact Hy']. assert (C2 : cg n (y - b) (y' - b)). { rewrite <- (proj2 (Inv ((y - b) * v) y)) by reflexivity. rewrite C1. apply Inv. reflexivity. } replace y with (y - b + b) by ring. rewrite C2. constructor. f_equal. ring.
    + intros x. rewrite in_map_iff. split.
      * intros (y & <- & Hy). apply H in Hy as (Hy & Cy). split; [apply Z.mod_pos_bound; lia|]. apply (Root _ y); [|exact Cy]. apply Inv. apply cg_mod.
      * intros (Hx & Cx). exists ((2 * a * x + b) mod n). assert (Cy : cg n (2 * a * x) ((2 * a * x + b) mod n - b)) by (rewrite cg_mod; constructor; f_equal; ring). split; [|apply H; split; [apply Z.mod_pos_bound; lia|apply (Root x); assumption]].
        apply (cg_small n); [|apply Z.mod_pos_bound; lia|exact Hx]. rewrite cg_mod. symmetry. apply Inv. exact Cy.
  - rewrite C01_gcd. cbn [bind]. destruct (split_ok (4 * a) n ltac:(lia) Hn _ eq_refl) as (a1 & a2 & -> & P1 & Em & G2). cbn [bind].
    assert (La : a1 <= 4 * Z.abs a). { assert (a2 <> 0) by nia. assert (Z.abs (a1 * a2) = 4 * Z.abs a) by (rewrite Em, Z.abs_mul; reflexivity). rewrite Z.abs_mul, (Z.abs_eq a1) in * by lia. nia. }
    destruct (sqrts_mod_n_ok disc (a1 * n) None) as (ys & -> & S & H); [nia|apply HF; nia| |].
    { intros p Hp D. apply Lk; [exact Hp|]. rewrite <- Em. apply (Z.divide_trans _ (a1 * n)); [exact D|]. exists a2. ring. }
    cbn [bind]. rewrite (mapM_ret _ (fun y => filter (fun x => (2 * a * x - (y - b)) mod (a1 * n) =? 0) (zrange 0 (a1 * n)))) by (intros y _; apply C10_linear_congruence; nia). cbn [bind]. rewrite (mapM_mod n (fun x => x)) by lia. cbn [bind]. apply Fin; [apply NoDup_nodup|]. intros x. rewrite nodup_In, in_map_iff.
    assert (Root : forall x y, cg (a1 * n) (2 * a * x) (y - b) -> (cg (a1 * n) (y * y) disc <-> cg n (a * x * x + b * x + c) 0)).
    { clear x. intros x y C1. assert (Cy : cg (a1 * n) y (2 * a * x + b)) by (rewrite C1; constructor; f_equal; ring). rewrite Cy. rewrite cg_div, (Sq x _ eq_refl), cg_0. rewrite <- Em, <- Z.mul_assoc. rewrite (Z.mul_divide_cancel_l _ _ a1) by lia. split; [|apply Z.divide_mul_r]. intros D. apply (Z.gauss _ a2); assumption. }
    split.
    + intros (z & <- & Hz). apply in_concat in Hz as (zs & Hzs & Hz). apply in_map_iff in Hzs as (y & <- & Hy). apply filter_In in Hz as (_ & Ez). apply Z.eqb_eq in Ez. apply H in Hy as (_ & Cy). split; [apply Z.mod_pos_bound; lia|]. assert (Cz : cg n (z mod n) z) by apply cg_mod. rewrite Cz. apply (Root z y); [|exact Cy]. apply cg_div. apply Z.mod_divide; [nia|exact Ez].
    + intros (Hx & Cx). exists x. split; [apply Z.mod_small; exact Hx|]. apply in_concat. set (y := (2 * a * x + b) mod (a1 * n)). exists (filter (fun x => (2 * a * x - (y - b)) mod (a1 * n) =? 0) (zrange 0 (a1 * n))).
      assert (Cy : cg (a1 * n) (2 * a * x) (y - b)) by (unfold y; rewrite cg_mod; constructor; f_equal; ring). split.
      * apply (in_map (fun y => filter (fun x => (2 * a * x - (y - b)) mod (a1 * n) =? 0) (zrange 0 (a1 * n)))). apply H. split; [apply Z.mod_pos_bound; nia|]. apply (Root x); assumption.
      * apply filter_In. split; [apply zrange_In; nia|]. apply Z.eqb_eq. apply Z.mod_divide; [nia|]. apply cg_div. exact Cy.
Qed.

(** ** Fibonacci primitive roots *)
Lemma fibonacci_ok p : prime p -> factors fact (p - 1) -> lucky (draw p) fuel p ->
  exists l, fibonacci_primitive_roots fact draw fuel p = Ret l /\ StronglySorted Z.lt l /\ forall g, In g l <-> 0 <= g < p /\ primitive p g /\ cg p (g * g) (g + 1).
Proof.
  intros Hp HF Lk. pose proof (prime_ge2 p Hp) as P2. unfold fibonacci_primitive_roots.
  assert (Nil : (forall g, 0 <= g < p -> cg p (g * g) (g + 1) -> False) -> exists l, Ret [] = Ret l /\ StronglySorted Z.lt l /\ forall g, In g l <-> 0 <= g < p /\ primitive p g /\ cg p (g * g) (g + 1)).
  { intros H. exists []. split; [reflexivity|]. split; [constructor|]. intros g. split; [intros []|]. intros (Hg & _ & C). apply (H g Hg C). }
  destruct (Z.eqb_spec (p mod 2) 0) as [Ev|Od].
  - apply Nil. assert (p = 2) by (apply prime_even; [exact Hp|apply Z.mod_divide; [lia|exact Ev]]). subst p. intros g Hg C. destruct C as (C). assert (g = 0 \/ g = 1) as [-> | ->] by lia; discriminate.
  - assert (N2 : p <> 2) by (intros ->; apply Od; reflexivity). pose proof (odd_prime p Hp (prime_odd p Hp N2)) as En. pose proof (p3 p (p / 2) Hp En).
    assert (G2 : Z.gcd 2 p = 1) by (apply prime_coprime; [exact prime_2|exact Hp|congruence]).
    assert (G4 : Z.gcd 4 p = 1) by (change 4 with (2 * 2); apply gcd_1_mul; exact G2).
    assert (Sq : forall g, cg p (g * g) (g + 1) <-> cg p ((2 * g - 1) * (2 * g - 1)) 5).
    { intros g. rewrite !cg_div. replace ((2 * g - 1) * (2 * g - 1) - 5) with (4 * (g * g - (g + 1))) by ring. split; [apply Z.divide_mul_r|]. intros D. apply (Z.gauss _ 4); [exact D|]. rewrite Z.gcd_comm. exact G4. }
    destruct (Z.eqb_spec p 5) as [->|N5].
    + exists [3]. split; [reflexivity|]. split; [repeat constructor|]. intros g. cbn [In]. split.
      * intros [<-|[]]. split; [lia|]. split; [|constructor; reflexivity]. split; [reflexivity|]. change (totient 5) with 4. split; [lia|]. split; [reflexivity|]. intros k Hk. assert (k = 1 \/ k = 2 \/ k = 3) as [-> |[-> | ->]] by lia; discriminate.
      * intros (Hg & _ & (C)). left. assert (g = 0 \/ g = 1 \/ g = 2 \/ g = 3 \/ g = 4) as [-> |[-> |[-> |[-> | ->]]]] by lia; try discriminate. reflexivity.
    + destruct (Z.ltb_spec p 5) as [L5|L5].
      * apply Nil. assert (p = 3) by (assert (p = 3 \/ p = 4) as [E|E] by lia; [exact E|subst p; exfalso; apply Od; reflexivity]). subst p. intros g Hg (C). assert (g = 0 \/ g = 1 \/ g = 2) as [-> |[-> | ->]] by lia; discriminate.
      * rewrite (jacobi_prime 5 p Hp N2). cbn [bind]. destruct (Z.eqb_spec (legendre 5 p) 1) as [L1|L1]; cbn [negb].
        -- destruct (sqrts_mod_p_ok (draw p) fuel 5 p Hp Lk) as (ss & -> & S & H5). cbn [bind]. destruct (C03_inverse_mod 2 p ltac:(lia) G2) as (v & -> & Hv & Ev & _). cbn [bind]. rewrite mapM_mod by lia. cbn [bind]. assert (Cv : cg p (2 * v) 1) by (constructor; rewrite Ev, Z.mod_small by lia; reflexivity).
           destruct HF as (lf & Ef & Ff). destruct (prime_divisors_ok fact (p - 1) lf) as (ds & -> & _ & Hds); [rewrite Z.abs_eq by lia; exact Ef|rewrite Z.abs_eq by lia; exact Ff|]. cbn [bind].
           set (qs := map (fun y => (1 + y) * v mod p) ss).
           assert (IP : forall r, exists b, is_primitive_root fact r p (Some (p - 1)) (Some ds) = Ret b /\ (b = true <-> primitive p r)). { intros r. apply is_primitive_root_ok; [lia|cbn; symmetry; apply totient_prime; exact Hp|]. cbn. intros q. rewrite (totient_prime p Hp). apply Hds. }
           set (test := fun r => match is_primitive_root fact r p (Some (p - 1)) (Some ds) with Ret b => b | _ => false end).
           assert (HT : forall r, is_primitive_root fact r p (Some (p - 1)) (Some ds) = Ret (test r) /\ (test r = true <-> primitive p r)). { intros r. destruct (IP r) as (bb & E & Hb). unfold test. rewrite E. auto. }
           rewrite (filterM_ret _ test) by (intros r _; apply HT). cbn [bind].
           assert (Cs : forall s, cg p (2 * ((1 + s) * v mod p) - 1) s). { intros s. rewrite cg_mod. replace (2 * ((1 + s) * v) - 1) with (2 * v * (1 + s) - 1) by ring. rewrite Cv. constructor. f_equal. ring. }
           eexists. split; [reflexivity|]. split.
           ++ apply zsort_strict. apply NoDup_filter. apply NoDup_map_inj; [apply sorted_NoDup; exact S|]. intros x y Hx Hy E. apply H5 in Hx as (Hx & _). apply H5 in Hy as (Hy & _). apply (cg_small p); [|exact Hx|exact Hy]. rewrite <- (Cs x), <- (Cs y), E. reflexivity.
           ++ intros g. rewrite zsort_In, filter_In. rewrite (proj2 (HT g)). unfold qs. rewrite in_map_iff. split.
              ** intros ((y & <- & Hy) & Pg). split; [apply Z.mod_pos_bound; lia|]. split; [exact Pg|]. apply Sq. rewrite (Cs y). apply H5 in Hy. apply Hy.
              ** intros (Hg & Pg & C). split; [|exact Pg]. exists ((2 * g - 1) mod p). split.
                 --- apply (cg_small p); [|apply Z.mod_pos_bound; lia|exact Hg]. rewrite cg_mod. rewrite cg_mod. replace ((1 + (2 * g - 1)) * v) with (2 * v * g) by ring. rewrite Cv, Z.mul_1_l. reflexivity.
                 --- apply H5. split; [apply Z.mod_pos_bound; lia|]. rewrite cg_mod. apply Sq. exact C.
        -- apply Nil. intros g Hg C. apply Sq in C. destruct (legendre_cases 5 p) as [L|[L|L]]; [|contradiction|apply (legendre_m1 5 p ltac:(lia) L _ C)]. apply legendre_zero in L; [|lia]. apply prime_div_prime in L; [lia|exact Hp|]. apply prime_intro; [lia|]. intros k Hk. apply Zgcd_1_rel_prime. assert (k = 1 \/ k = 2 \/ k = 3 \/ k = 4) as [-> |[-> |[-> | ->]]] by lia; reflexivity.
Qed.
End N.
