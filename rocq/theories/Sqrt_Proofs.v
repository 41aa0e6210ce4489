(** * Square roots modulo a prime *)
From Coq Require Import ZArith List Bool Lia Znumtheory Sorted Permutation.
From Verif Require Import Base Py Lists Lists2 Sums NT NT_Euler Core_Model Core_Props Factor_Spec NT_Cong NT_Prim Ord_Model Ord_Proofs2 QR_Spec NT_QR QR_Proofs Sqrt_Model.
Import ListNotations.
Open Scope Z_scope.

Lemma prime_odd p : prime p -> p <> 2 -> Z.odd p = true.
Proof.
  intros Hp N. destruct (Z.odd p) eqn:O; [reflexivity|]. rewrite <- Z.negb_even in O. apply negb_false_iff, Z.even_spec in O as (c & E). exfalso. apply N. apply prime_even; [exact Hp|exists c; lia].
Qed.

Lemma legendre_cases a p : legendre a p = 0 \/ legendre a p = 1 \/ legendre a p = -1.
Proof. unfold legendre. destruct (_ =? 0); [auto|]. destruct (existsb _ _); auto. Qed.

Lemma legendre_m1 a p : 0 < p -> legendre a p = -1 -> forall x, ~ cg p (x * x) a.
Proof.
  intros Hp E x (C). unfold legendre in E. destruct (_ =? 0); [discriminate|]. destruct (existsb _ _) eqn:F; [discriminate|].
  assert (T : existsb (fun x => x * x mod p =? a mod p) (zrange 0 p) = true); [|congruence]. apply existsb_exists. exists (x mod p). split; [apply zrange_In; apply Z.mod_pos_bound; lia|]. apply Z.eqb_eq. rewrite <- Zmult_mod. exact C.
Qed.
Lemma legendre_zero a p : 0 < p -> legendre a p = 0 -> (p | a).
Proof. intros Hp E. unfold legendre in E. destruct (Z.eqb_spec (a mod p) 0) as [Z0|]; [apply Z.mod_divide; [lia|exact Z0]|]. destruct (existsb _ _); discriminate. Qed.

(** ** solovay_strassen accepts every prime *)
Lemma solovay_prime n a : prime n -> n <> 2 -> ~ (n | a) -> solovay_strassen n a = Ret true.
Proof.
  intros Hn N2 Na. pose proof (prime_ge2 n Hn). unfold solovay_strassen. rewrite (jacobi_prime a n Hn N2). cbn [bind]. destruct (Z.eqb_spec (legendre a n) 0) as [E|_]; [exfalso; apply Na, legendre_zero; [lia|exact E]|].
  unfold pymod, pow3. destruct (Z.eqb_spec n 0); [lia|]. cbn [bind]. pose proof (odd_prime n Hn (prime_odd n Hn N2)) as En. pose proof (euler_criterion n (n / 2) Hn En a) as (C).
  replace ((n - 1) / 2) with (n / 2) by (apply Z.div_unique with 0; lia). rewrite C, Z.eqb_refl. reflexivity.
Qed.

Section P.
Variables p h : Z.
Hypothesis p_prime : prime p.
Hypothesis p_odd : p = 2 * h + 1.

Lemma sq_cases x y : cg p (x * x) (y * y) -> cg p x y \/ cg p x (- y).
Proof.
  intros C. apply cg_div in C. replace (x * x - y * y) with ((x - y) * (x + y)) in C by ring. apply prime_mult in C; [|exact p_prime]. destruct C as [C|C]; [left|right]; apply cg_div; [exact C|]. replace (x - - y) with (x + y) by ring. exact C.
Qed.

(** Two roots from one. *)
Lemma both_roots a x : 0 <= x < p -> cg p (x * x) a -> ~ (p | a) -> StronglySorted Z.lt (zsort [x; p - x]) /\ forall y, In y (zsort [x; p - x]) <-> 0 <= y < p /\ cg p (y * y) a.
Proof.
  intros Hx Ex Na. pose proof (p3 p h p_prime p_odd). assert (x <> 0) by (intros ->; apply Na; apply cg_0; rewrite <- Ex; reflexivity).
  split; [apply zsort_strict; repeat constructor; cbn; lia|]. intros y. rewrite zsort_In. cbn [In]. split.
  - intros [<-|[<-|[]]]; (split; [lia|]); [exact Ex|]. rewrite <- Ex. apply cg_div. exists (p - 2 * x). ring.
  - intros (Hy & Ey). rewrite <- Ex in Ey. apply sq_cases in Ey as [C|C].
    + left. symmetry. apply (cg_small p); assumption.
    + right. left. symmetry. apply (cg_small p); [|assumption|lia]. rewrite C. apply cg_div. exists (-1). ring.
Qed.

Lemma half_unit a : ~ (p | a) -> cg p (a ^ (p - 1)) 1.
Proof. intros N. rewrite <- (totient_prime p p_prime). pose proof (p3 p h p_prime p_odd). apply euler_totient; [lia|]. apply (p_gcd p p_prime). exact N. Qed.

(** ** The Tonelli-Shanks loop *)
Lemma shanks_ok A D s : 1 <= s -> cg p (A ^ 2 ^ (s - 1)) 1 -> cg p (D ^ 2 ^ (s - 1)) (-1) ->
  exists m, foldM (shanks_step A D s p) (zrange 0 s) 0 = Ret m /\ 0 <= m /\ m mod 2 = 0 /\ cg p (A * D ^ m) 1.
Proof.
  intros Hs HA HD. pose proof (p3 p h p_prime p_odd).
  destruct (foldM_range (shanks_step A D s p) (fun i m => 0 <= m /\ m mod 2 = 0 /\ cg p ((A * D ^ m) ^ 2 ^ (s - i)) 1) 0 s 0 ltac:(lia)) as (m & E & H0 & H1 & H2).
  - split; [lia|]. split; [reflexivity|]. rewrite Z.pow_0_r, Z.mul_1_r. replace (s - 0) with (Z.succ (s - 1)) by lia. rewrite Z.pow_succ_r, (Z.mul_comm 2), Z.pow_mul_r by (try apply Z.pow_nonneg; lia). rewrite HA. reflexivity.
  - intros i m Hi (M0 & M2 & C). unfold shanks_step, pow3. destruct (Z.eqb_spec p 0); [lia|]. cbn [bind]. eexists. split; [reflexivity|]. set (y := (A * D ^ m) ^ 2 ^ (s - 1 - i)).
    assert (Y : cg p (y * y) 1). { rewrite <- C. unfold y. rewrite <- Z.pow_add_r by (apply Z.pow_nonneg; lia). replace (s - i) with (Z.succ (s - 1 - i)) by lia. rewrite Z.pow_succ_r by lia. replace (2 * 2 ^ (s - 1 - i)) with (2 ^ (s - 1 - i) + 2 ^ (s - 1 - i)) by ring. reflexivity. }
    replace (s - (i + 1)) with (s - 1 - i) by lia. apply (square_1 p h p_prime p_odd) in Y as [Y|Y].
    + assert (E1 : y mod p = 1) by (apply cg_eq; [lia|exact Y]). rewrite E1. destruct (Z.eqb_spec 1 (p - 1)); [lia|]. split; [exact M0|]. split; [exact M2|]. exact Y.
    + assert (E1 : y mod p = p - 1) by (apply cg_eq; [lia|]; rewrite Y; apply cg_div; exists (-1); ring). rewrite E1, Z.eqb_refl. pose proof (Z.pow_pos_nonneg 2 i ltac:(lia) ltac:(lia)) as Pi. split; [lia|]. split.
      * destruct (Z.eq_dec i 0) as [->|Ni].
        -- exfalso. unfold y in Y. rewrite Z.sub_0_r in Y. rewrite Z.pow_mul_l in Y. rewrite HA in Y. rewrite Z.mul_1_l in Y. rewrite <- Z.pow_mul_r in Y by (try apply Z.pow_nonneg; lia). rewrite (Z.mul_comm m) in Y. rewrite Z.pow_mul_r in Y by (try apply Z.pow_nonneg; lia). rewrite HD in Y.
           rewrite neg1_cases in Y by exact M0. assert (Om : Z.odd m = false) by (rewrite Zmod_odd in M2; destruct (Z.odd m); [discriminate|reflexivity]). rewrite Om in Y. apply cg_div in Y. apply Z.divide_pos_le in Y; lia.
        -- replace i with (Z.succ (i - 1)) by lia. rewrite Z.pow_succ_r, (Z.mul_comm 2), Z_mod_plus_full by lia. exact M2.
      * rewrite Z.pow_add_r by lia. rewrite Z.mul_assoc, Z.pow_mul_l. fold y. rewrite Y. rewrite <- Z.pow_mul_r by (try apply Z.pow_nonneg; lia). rewrite <- Z.pow_add_r by lia. replace (i + (s - 1 - i)) with (s - 1) by lia. rewrite HD. reflexivity.
  - exists m. split; [exact E|]. split; [exact H0|]. split; [exact H1|]. rewrite Z.sub_diag, Z.pow_0_r, Z.pow_1_r in H2. exact H2.
Qed.

Lemma find_ok draw i fuel : (exists d j, find_nonresidue p draw i fuel = Ret d /\ (i <= j < i + fuel)%nat /\ d = draw j /\ legendre d p = -1) \/
  (find_nonresidue p draw i fuel = Diverge /\ forall j, (i <= j < i + fuel)%nat -> legendre (draw j) p <> -1).
Proof.
  pose proof (p3 p h p_prime p_odd). revert i. induction fuel as [|fuel IH]; intros i; [right; split; [reflexivity|intros; lia]|]. cbn [find_nonresidue]. rewrite (jacobi_prime _ p p_prime) by lia. cbn [bind]. destruct (Z.eqb_spec (legendre (draw i) p) (-1)) as [E|N]; cbn [negb].
  - left. exists (draw i), i. split; [reflexivity|]. split; [lia|]. auto.
  - destruct (IH (S i)) as [(d & j & E & Hj & H1)|(E & H1)]; [left; exists d, j; split; [exact E|]; split; [lia|exact H1]|right; split; [exact E|]]. intros j Hj. destruct (Nat.eq_dec j i) as [->|]; [exact N|apply H1; lia].
Qed.
End P.

(** The draws contain a quadratic nonresidue, when one is needed. *)
Definition lucky (draw : nat -> Z) (fuel : nat) (p : Z) : Prop := p mod 8 = 1 -> exists i, (i < fuel)%nat /\ legendre (draw i) p = -1.

Lemma sqrts_mod_p_ok draw fuel a p : prime p -> lucky draw fuel p ->
  exists l, sqrts_mod_p draw fuel a p = Ret l /\ StronglySorted Z.lt l /\ forall x, In x l <-> 0 <= x < p /\ cg p (x * x) a.
Proof.
  intros Hp Lk. pose proof (prime_ge2 p Hp) as P2. unfold sqrts_mod_p. destruct (Z.ltb_spec p 2); [lia|]. destruct (Z.eqb_spec p 2) as [E2|N2].
  - exists [a mod p]. split; [reflexivity|]. split; [repeat constructor|]. intros x. pose proof (Z.mod_pos_bound a p ltac:(lia)) as B. assert (Sq : cg p (x * x) x). { rewrite E2. apply cg_div. replace (x * x - x) with (x * (x - 1)) by ring. destruct (Z.Even_or_Odd x) as [(c & ->)|(c & ->)]; [apply Z.divide_mul_l; exists c; ring|apply Z.divide_mul_r; exists c; ring]. }
    cbn [In]. split; [intros [<-|[]]; split; [lia|]; rewrite Sq; apply cg_mod|]. intros (Hx & E). left. rewrite Sq in E. symmetry. apply (cg_small p); [|lia|lia]. rewrite cg_mod. exact E.
  - pose proof (odd_prime p Hp (prime_odd p Hp N2)) as En. set (h := p / 2) in *. pose proof (p3 p h Hp En). pose proof (Z.mod_pos_bound a p ltac:(lia)) as B. set (a' := a mod p) in *. assert (Ca : cg p a' a) by apply cg_mod.
    destruct (Z.eqb_spec a' 0) as [E0|N0].
    + exists [0]. split; [reflexivity|]. split; [repeat constructor|]. intros x. rewrite <- Ca, E0. cbn [In]. split; [intros [<-|[]]; split; [lia|reflexivity]|]. intros (Hx & E). left. apply cg_0 in E. apply prime_mult in E; [|exact Hp]. assert (D : (p | x)) by (destruct E; assumption). destruct (Z.eq_dec x 0) as [->|Nx]; [reflexivity|]. apply Z.divide_pos_le in D; lia.
    + assert (Na : ~ (p | a')) by (intros D; apply Z.divide_pos_le in D; lia). rewrite (jacobi_prime a' p Hp N2). cbn [bind]. destruct (Z.eqb_spec (legendre a' p) 1) as [L1|L1]; cbn [negb].
      * assert (Ah : cg p (a' ^ h) 1) by (rewrite (euler_criterion p h Hp En), L1; reflexivity).
        assert (Fin : forall x, 0 <= x < p -> cg p (x * x) a' -> exists l, Ret (zsort [x; p - x]) = Ret l /\ StronglySorted Z.lt l /\ forall x, In x l <-> 0 <= x < p /\ cg p (x * x) a).
        { intros x Hx Ex. destruct (both_roots p h Hp En a' x Hx Ex Na) as (S1 & S2). eexists. split; [reflexivity|]. split; [exact S1|]. intros y. rewrite S2, Ca. reflexivity. }
        pose proof (Z.div_mod p 8 ltac:(lia)) as D8. pose proof (Z.mod_pos_bound p 8 ltac:(lia)) as B8. set (k := p / 8) in *. set (r := p mod 8) in *.
        assert (R : r = 1 \/ r = 3 \/ r = 5 \/ r = 7) by lia. unfold pow3. destruct (Z.eqb_spec p 0); [lia|].
        assert (SM : forall e, 0 <= e -> cg p (a' ^ e mod p * (a' ^ e mod p)) (a' ^ (2 * e))) by (intros e He; rewrite cg_mod, <- Z.pow_add_r by lia; replace (e + e) with (2 * e) by ring; reflexivity).
        assert (E37 : forall e, p + 1 = 4 * e -> 0 <= e -> cg p (a' ^ e mod p * (a' ^ e mod p)) a'). { intros e He He0. rewrite SM by exact He0. replace (2 * e) with (h + 1) by lia. rewrite Z.pow_add_r, Z.pow_1_r, Ah, Z.mul_1_l by lia. reflexivity. }
        destruct R as [R|[R|[R|R]]]; rewrite R; cbn [Z.eqb Pos.eqb orb bind].
        -- destruct (Lk ltac:(exact R)) as (i & Hi & Li). destruct (find_ok p h Hp En draw 0 fuel) as [(d & j & -> & _ & _ & Ld)|(_ & Nd)]; [|exfalso; apply (Nd i); [lia|exact Li]]. cbn [bind].
           destruct (C07_valuation 2 (p - 1) ltac:(lia) ltac:(lia)) as (s & -> & Hs & (t & Et) & Ns). cbn [bind]. rewrite Z.shiftr_div_pow2 by exact Hs. pose proof (Z.pow_pos_nonneg 2 s ltac:(lia) Hs) as Ps.
           replace ((p - 1) / 2 ^ s) with t by (rewrite Et, Z.div_mul by lia; reflexivity). assert (s1 : 1 <= s). { destruct (Z.eq_dec s 0) as [->|]; [|lia]. exfalso. apply Ns. exists (4 * k). change (2 ^ (0 + 1)) with 2. lia. }
           assert (Ot : exists u, t = 2 * u + 1). { destruct (Z.Even_or_Odd t) as [(u & Eu)|(u & Eu)]; [|exists u; exact Eu]. exfalso. apply Ns. exists u. rewrite Z.pow_add_r, Z.pow_1_r by lia. rewrite Et, Eu. ring. }
           destruct Ot as (u & Eu). assert (t0 : 0 < t) by nia. assert (Hh : t * 2 ^ (s - 1) = h). { replace s with (Z.succ (s - 1)) in Et by lia. rewrite Z.pow_succ_r in Et by lia. lia. }
           destruct (shanks_ok p h Hp En (a' ^ t mod p) (d ^ t mod p) s s1) as (m & -> & M0 & M2 & Cm).
           ++ rewrite cg_mod. rewrite <- Z.pow_mul_r by (try apply Z.pow_nonneg; lia). rewrite Hh. exact Ah.
           ++ rewrite cg_mod. rewrite <- Z.pow_mul_r by (try apply Z.pow_nonneg; lia). rewrite Hh. rewrite (euler_criterion p h Hp En), Ld. reflexivity.
           ++ cbn [bind]. apply Fin; [apply Z.mod_pos_bound; lia|]. set (D := d ^ t mod p) in *. replace ((t + 1) / 2) with (u + 1) by (apply Z.div_unique with 0; lia). apply Z.mod_divide in M2; [|lia]. destruct M2 as (m2 & ->). rewrite Z.div_mul by lia. rewrite !cg_mod.
              replace (a' ^ (u + 1) * D ^ m2 * (a' ^ (u + 1) * D ^ m2)) with (a' * (a' ^ t * D ^ (m2 * 2))).
              ** rewrite cg_mod in Cm. rewrite Cm, Z.mul_1_r. reflexivity.
              ** replace t with (u + u + 1) by lia. rewrite !Z.pow_add_r by lia. replace (m2 * 2) with (m2 + m2) by ring. rewrite Z.pow_add_r by lia. rewrite !Z.pow_1_r. ring.
        -- apply Fin; [apply Z.mod_pos_bound; lia|]. replace ((p + 1) / 4) with (2 * k + 1) by (apply Z.div_unique with 0; lia). apply E37; lia.
        -- replace ((p + 3) / 8) with (k + 1) by (apply Z.div_unique with 0; lia). set (x := a' ^ (k + 1) mod p). pose proof (Z.mod_pos_bound (a' ^ (k + 1)) p ltac:(lia)) as Bx. fold x in Bx.
           assert (Q : cg p (a' ^ (2 * k + 1) * a' ^ (2 * k + 1)) 1). { rewrite <- Z.pow_add_r by lia. replace (2 * k + 1 + (2 * k + 1)) with h by lia. exact Ah. }
           assert (X2 : cg p (x * x) (a' * a' ^ (2 * k + 1))). { unfold x. rewrite SM by lia. replace (2 * (k + 1)) with (1 + (2 * k + 1)) by ring. rewrite Z.pow_add_r, Z.pow_1_r by lia. reflexivity. }
           destruct (Z.eqb_spec (x * x mod p) a') as [E|N]; cbn [negb bind].
           ++ apply Fin; [exact Bx|]. constructor. rewrite E. symmetry. apply Z.mod_small. exact B.
           ++ apply (square_1 p h Hp En) in Q as [Q|Q].
              ** exfalso. apply N. apply cg_eq; [exact B|]. rewrite X2, Q, Z.mul_1_r. reflexivity.
              ** apply Fin; [apply Z.mod_pos_bound; lia|]. rewrite !cg_mod. replace ((p - 1) / 4) with (2 * k + 1) by (apply Z.div_unique with 0; lia). set (w := 2 ^ (2 * k + 1)). replace (x * w * (x * w)) with (x * x * (w * w)) by ring. rewrite X2, Q.
                 assert (W : w * w = 2 ^ h) by (unfold w; rewrite <- Z.pow_add_r by lia; f_equal; lia). rewrite W. rewrite (euler_criterion p h Hp En), (legendre_2 p h Hp En). unfold chi8. fold r. rewrite R. cbn. replace (a' * -1 * -1) with a' by ring. reflexivity.
        -- apply Fin; [apply Z.mod_pos_bound; lia|]. replace ((p + 1) / 4) with (2 * k + 2) by (apply Z.div_unique with 0; lia). apply E37; lia.
      * exists []. split; [reflexivity|]. split; [constructor|]. intros x. split; [intros []|]. intros (Hx & E). exfalso. destruct (legendre_cases a' p) as [L|[L|L]]; [apply Na, legendre_zero; [lia|exact L]|contradiction|]. apply (legendre_m1 a' p ltac:(lia) L x). rewrite Ca. exact E.
Qed.

(** Without a nonresidue among the draws, the loop goes on. *)
Lemma sqrts_mod_p_sound draw fuel a p l : prime p -> sqrts_mod_p draw fuel a p = Ret l ->
  StronglySorted Z.lt l /\ forall x, In x l <-> 0 <= x < p /\ cg p (x * x) a.
Proof.
  intros Hp E. pose proof (prime_ge2 p Hp) as P2. destruct (Z.eq_dec p 2) as [E2|N2].
  - destruct (sqrts_mod_p_ok draw fuel a p Hp) as (l' & E' & H); [intros R; exfalso; subst p; discriminate|]. rewrite E in E'. injection E' as <-. exact H.
  - pose proof (odd_prime p Hp (prime_odd p Hp N2)) as En. destruct (find_ok p (p / 2) Hp En draw 0 fuel) as [(d & j & Ef & Hj & Ed & Ld)|(Ef & Nd)].
    + destruct (sqrts_mod_p_ok draw fuel a p Hp) as (l' & E' & H); [intros _; exists j; split; [lia|]; rewrite <- Ed; exact Ld|]. rewrite E in E'. injection E' as <-. exact H.
    + (* the same value with one more, lucky, draw *)
      destruct (prim_prime p Hp) as (g & O).
      assert (Lg : legendre g p = -1). { pose proof (p3 p (p / 2) Hp En). apply (small_eq p); [lia|apply legendre_range|lia|]. rewrite <- (euler_criterion p (p / 2) Hp En). replace (p / 2) with ((p - 1) / 2) by (apply Z.div_unique with 1; [lia|]; pose proof (Z.div_mod (p - 1) 2 ltac:(lia)); assert ((p - 1) mod 2 = 0) by (apply Z.mod_divide; [lia|]; exists (p / 2); lia); lia). apply half_root; assumption. }
      destruct (sqrts_mod_p_ok (fun _ => g) 1 a p Hp) as (l' & E' & H); [intros _; exists 0%nat; split; [lia|exact Lg]|]. assert (El : sqrts_mod_p (fun _ => g) 1 a p = Ret l); [|rewrite El in E'; injection E' as <-; exact H].
      revert E. unfold sqrts_mod_p. rewrite Ef. destruct (p <? 2); [auto|]. destruct (p =? 2); [auto|]. destruct (a mod p =? 0); [auto|]. destruct (jacobi_symbol (a mod p) p) as [j| |]; cbn [bind]; auto. destruct (negb (j =? 1)); [auto|]. destruct ((p mod 8 =? 3) || (p mod 8 =? 7)); [auto|]. destruct (p mod 8 =? 5); [auto|]. cbn [bind]. discriminate.
Qed.
