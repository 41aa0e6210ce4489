(** * Roots of unity modulo a prime; discrete logarithms *)
From Coq Require Import ZArith List Lia Znumtheory Bool Sorted Permutation.
From Verif Require Import Base Py Dict Lists Lists2 Sums NT NT_Euler Core_Model Core_Props Factor_Model Factor_Spec Arith_Spec Arith_Model Arith_Proofs
  NT_Cong NT_Prim NT_Prim2 Ord_Spec Ord_Model Ord_Proofs.
Import ListNotations.
Open Scope Z_scope.

(** The powers of h. *)
Lemma power_list_ok h p d : 1 < p -> 0 <= d -> foldM (power_list_step h p) (zrange 0 d) ([], 1) = Ret (map (fun i => h ^ i mod p) (zrange 0 d), h ^ d mod p).
Proof.
  intros Hp Hd. destruct (foldM_range (power_list_step h p) (fun b s => s = (map (fun i => h ^ i mod p) (zrange 0 b), h ^ b mod p)) 0 d ([], 1) ltac:(lia)) as (s & E & ->); [|  |exact E].
  - rewrite zrange_nil by lia. rewrite Z.pow_0_r, Z.mod_small by lia. reflexivity.
  - intros x s Hx ->. unfold power_list_step, pymod. destruct (Z.eqb_spec p 0); [lia|]. cbn [bind]. eexists. split; [reflexivity|]. rewrite zrange_snoc by lia. rewrite map_app. cbn [map]. f_equal. rewrite Z.pow_add_r, Z.pow_1_r by lia. rewrite Zmult_mod_idemp_l. reflexivity.
Qed.

Lemma unity_list p h d : prime p -> is_order p h d -> let l := map (fun i => h ^ i mod p) (zrange 0 d) in
  NoDup l /\ forall x, In x l <-> 0 <= x < p /\ cg p (x ^ d) 1.
Proof.
  intros Hp O l. pose proof (prime_ge2 p Hp). assert (d0 : 0 < d) by (destruct O; assumption).
  assert (ND : NoDup l).
  { apply NoDup_map_inj; [apply zrange_NoDup|]. intros i j Hi Hj E. apply zrange_In in Hi, Hj. assert (G : Z.gcd h p = 1) by apply (order_unit p h d O).
    assert (W : forall i j, 0 <= i < d -> 0 <= j < d -> i <= j -> h ^ i mod p = h ^ j mod p -> i = j).
    { clear i j Hi Hj E. intros i j Hi Hj L E. destruct (Z.eq_dec i j) as [|D]; [assumption|]. exfalso. destruct O as (_ & _ & HL). apply (HL (j - i)); [lia|]. apply (cg_cancel p (h ^ i)); [apply gcd_1_pow; [lia|exact G]|]. rewrite <- Z.pow_add_r by lia. replace (i + (j - i)) with j by lia. rewrite Z.mul_1_r. constructor. symmetry. exact E. }
    destruct (Z.le_ge_cases i j) as [L|L]; [apply W; assumption|symmetry; apply W; [assumption|assumption|assumption|symmetry; exact E]]. }
  assert (Sd : forall x, In x l -> 0 <= x < p /\ cg p (x ^ d) 1).
  { intros x Hx. apply in_map_iff in Hx as (i & <- & Hi). apply zrange_In in Hi. split; [apply Z.mod_pos_bound; lia|]. rewrite cg_mod. rewrite <- Z.pow_mul_r by lia. apply (order_divide p h d); [exact O|nia|]. apply Z.divide_factor_r. }
  split; [exact ND|]. intros x. split; [apply Sd|]. intros Hx. destruct (in_dec Z.eq_dec x l) as [|N]; [assumption|]. exfalso.
  assert (L : Z.of_nat (length (x :: l)) <= d). { apply (power_roots p d 1 (x :: l) Hp d0); [constructor; assumption|]. intros y [<-|Hy]; [exact Hx|apply Sd; exact Hy]. }
  cbn [length] in L. unfold l in L. rewrite map_length, zrange_length in L. lia.
Qed.

Section Roots.
Context (fact : Z -> outcome (list (Z * Z))) (p : Z).
Hypothesis p_prime : prime p.

(** The optional primitive root. *)
Definition root_arg (g : option Z) : Prop := match g with Some g => primitive p g | None => factors fact p /\ factors fact (p - 1) end.

Lemma default_root_ok g : root_arg g -> exists r, default_root fact p g = Ret r /\ is_order p r (p - 1).
Proof.
  intros Hg. pose proof (prime_ge2 p p_prime). destruct g as [g|]; cbn [default_root root_arg] in *.
  - exists g. split; [reflexivity|]. destruct Hg as (_ & O). apply order_of_iff in O. rewrite totient_prime in O by exact p_prime. exact O.
  - destruct Hg as (F1 & F2). destruct (primitive_root_ok fact p None (Some (p - 1)) None ltac:(lia) F1) as [(_ & g & E & _ & P & _)|(N & _)].
    + right. rewrite totient_prime by exact p_prime. reflexivity.
    + cbn. rewrite totient_prime by exact p_prime. exact F2.
    + rewrite E. cbn [bind]. exists g. split; [reflexivity|]. destruct P as (_ & O). apply order_of_iff in O. rewrite totient_prime in O by exact p_prime. exact O.
    + exfalso. apply N. destruct (prim_prime p p_prime) as (g & O). exists g. apply order_primitive. rewrite totient_prime by exact p_prime. exact O.
Qed.

Lemma order_power g e : is_order p g (p - 1) -> 0 < e -> (e | p - 1) -> is_order p (g ^ ((p - 1) / e) mod p) e.
Proof.
  intros O He (c & Ec). pose proof (prime_ge2 p p_prime). rewrite Ec, Z.div_mul by lia. apply (order_cg p (g ^ c)); [symmetry; apply cg_mod|]. apply order_pow; [rewrite (Z.mul_comm e), <- Ec; exact O|nia|exact He].
Qed.

(** x^n = 1 exactly when x^gcd(n, p-1) = 1. *)
Lemma gcd_exponent n x : 0 < n -> cg p (x ^ n) 1 <-> cg p (x ^ Z.gcd n (p - 1)) 1.
Proof.
  intros Hn. pose proof (prime_ge2 p p_prime). set (d := Z.gcd n (p - 1)). assert (D : (d | n)) by apply Z.gcd_divide_l. assert (d0 : 0 < d) by (unfold d; pose proof (Z.gcd_nonneg n (p - 1)); assert (Z.gcd n (p - 1) <> 0) by (intros X; apply Z.gcd_eq_0_l in X; lia); lia). split; intros E.
  - pose proof (cg_unit p x n Hn E) as G. destruct (order_exists p x ltac:(lia) G) as (o & O & _). apply (order_divide p x o _ O); [lia|]. apply Z.gcd_greatest; [apply (order_divide p x o _ O); [lia|exact E]|].
    apply (order_divide p x o _ O); [lia|]. rewrite <- (totient_prime p p_prime). apply euler_totient; [lia|exact G].
  - destruct D as (c & En). assert (0 <= c) by nia. rewrite En, Z.mul_comm, Z.pow_mul_r by lia. apply cg_pow_1; assumption.
Qed.

Lemma unity_run n g : 0 < n -> is_order p g (p - 1) -> p <> 2 ->
  exists l, nth_roots_of_unity_mod_p fact n p (Some g) = Ret l /\ StronglySorted Z.lt l /\ forall x, In x l <-> 0 <= x < p /\ cg p (x ^ n) 1.
Proof.
  intros Hn O P2. pose proof (prime_ge2 p p_prime). unfold nth_roots_of_unity_mod_p. destruct (Z.eqb_spec p 2) as [|_]; [contradiction|]. cbn [default_root bind]. rewrite C01_gcd. cbn [bind]. set (d := Z.gcd n (p - 1)).
  assert (d0 : 0 < d) by (unfold d; pose proof (Z.gcd_nonneg n (p - 1)); assert (Z.gcd n (p - 1) <> 0) by (intros X; apply Z.gcd_eq_0_l in X; lia); lia). assert (D : (d | p - 1)) by apply Z.gcd_divide_r.
  unfold pydiv, pow3. destruct (Z.eqb_spec d 0); [lia|]. destruct (Z.eqb_spec p 0); [lia|]. cbn [bind]. set (h := g ^ ((p - 1) / d) mod p). rewrite power_list_ok by lia. cbn [bind].
  destruct (unity_list p h d p_prime (order_power g d O d0 D)) as (ND & H1). eexists. split; [reflexivity|]. split; [apply zsort_strict; exact ND|]. intros x. rewrite zsort_In, H1. rewrite (gcd_exponent n x Hn). reflexivity.
Qed.

Lemma unity_2 n x : p = 2 -> 0 < n -> In x [1] <-> 0 <= x < p /\ cg p (x ^ n) 1.
Proof.
  intros P2 Hn. rewrite P2. cbn [In]. split; [intros [<-|[]]; split; [lia|]; rewrite Z.pow_1_l by lia; reflexivity|].
  intros (Hx & E). left. destruct (Z.eq_dec x 0) as [->|]; [|lia]. exfalso. rewrite Z.pow_0_l in E by lia. destruct E as (E). discriminate.
Qed.

Lemma unity_ok n g : 0 < n -> root_arg g -> exists l, nth_roots_of_unity_mod_p fact n p g = Ret l /\ StronglySorted Z.lt l /\ forall x, In x l <-> 0 <= x < p /\ cg p (x ^ n) 1.
Proof.
  intros Hn Hg. destruct (Z.eq_dec p 2) as [P2|P2].
  - unfold nth_roots_of_unity_mod_p. destruct (Z.eqb_spec p 2); [|contradiction]. exists [1]. split; [reflexivity|]. split; [repeat constructor|]. intros x. apply unity_2; assumption.
  - destruct (default_root_ok g Hg) as (r & E & O). destruct (unity_run n r Hn O P2) as (l & El & H). exists l. split; [|exact H]. rewrite <- El. unfold nth_roots_of_unity_mod_p. rewrite E. reflexivity.
Qed.

Lemma half_root g : is_order p g (p - 1) -> p <> 2 -> cg p (g ^ ((p - 1) / 2)) (-1).
Proof.
  intros O P2. pose proof (prime_ge2 p p_prime). assert (Ev : exists c, p - 1 = 2 * c).
  { destruct (Z.Even_or_Odd p) as [(c & E)|(c & E)]; [|exists c; lia]. exfalso. apply P2. apply prime_even; [exact p_prime|exists c; lia]. }
  destruct Ev as (c & Ec). rewrite Ec. rewrite (Z.mul_comm 2), Z.div_mul by lia. destruct O as (_ & O1 & OL).
  assert (S : (g ^ c * g ^ c) mod p = 1). { assert (C : cg p (g ^ c * g ^ c) 1) by (rewrite <- Z.pow_add_r by lia; replace (c + c) with (p - 1) by lia; exact O1). apply cg_eq; [lia|exact C]. }
  apply sqrt1_prime in S; [|exact p_prime]. destruct S as [S|S].
  - exfalso. apply (OL c); [lia|]. constructor. rewrite S, Z.mod_small by lia. reflexivity.
  - constructor. rewrite S. replace (-1) with (p - 1 + (-1) * p) by ring. rewrite Z_mod_plus_full, Z.mod_small by lia. reflexivity.
Qed.

Lemma neg1_pow n : p <> 2 -> 0 <= n -> (cg p ((-1) ^ n) (-1) <-> Z.odd n = true).
Proof.
  intros P2 Hn. pose proof (prime_ge2 p p_prime). assert (N : ~ cg p 1 (-1)). { intros E. apply cg_div in E. apply Z.divide_pos_le in E; lia. }
  destruct (Z.Even_or_Odd n) as [(c & E)|(c & E)]; rewrite E.
  - rewrite Z.pow_mul_r by lia. change ((-1) ^ 2) with 1. rewrite Z.pow_1_l by lia. rewrite Z.odd_mul. cbn. split; [contradiction|discriminate].
  - rewrite Z.pow_add_r, Z.pow_mul_r by lia. change ((-1) ^ 2) with 1. rewrite Z.pow_1_l by lia. rewrite Z.odd_add, Z.odd_mul. cbn. split; [reflexivity|]. intros _. reflexivity.
Qed.

Lemma minus1_ok n g : 0 < n -> root_arg g -> exists l, nth_roots_of_minus1_mod_p fact n p g = Ret l /\ StronglySorted Z.lt l /\ forall x, In x l <-> 0 <= x < p /\ cg p (x ^ n) (-1).
Proof.
  intros Hn Hg. pose proof (prime_ge2 p p_prime). unfold nth_roots_of_minus1_mod_p. destruct (Z.eqb_spec p 2) as [P2|P2].
  - exists [1]. split; [reflexivity|]. split; [repeat constructor|]. intros x. rewrite (unity_2 n x P2 Hn). assert (C : cg p 1 (-1)) by (rewrite P2; constructor; reflexivity). rewrite C. reflexivity.
  - rewrite C01_gcd. cbn [bind]. set (d := Z.gcd n (p - 1)). assert (d0 : 0 < d) by (unfold d; pose proof (Z.gcd_nonneg n (p - 1)); assert (Z.gcd n (p - 1) <> 0) by (intros X; apply Z.gcd_eq_0_l in X; lia); lia).
    assert (Dp : (d | p - 1)) by apply Z.gcd_divide_r. assert (Dn : (d | n)) by apply Z.gcd_divide_l. destruct Dp as (e & Ee). destruct Dn as (k & Ek). assert (e0 : 0 < e) by nia. assert (k0 : 0 < k) by nia.
    unfold pydiv. destruct (Z.eqb_spec d 0); [lia|]. cbn [bind]. replace ((p - 1) / d) with e by (rewrite Ee, Z.div_mul by lia; reflexivity).
    assert (Fer : forall x, cg p (x ^ n) (-1) -> cg p (x ^ (p - 1)) 1).
    { intros x E. rewrite <- (totient_prime p p_prime). apply euler_totient; [lia|]. apply (cg_unit p x (n * 2)); [lia|]. rewrite Z.pow_mul_r by lia. rewrite E. reflexivity. }
    destruct (Z.eqb_spec (e mod 2) 0) as [Ev|Od]; cbn [negb].
    + destruct (default_root_ok g Hg) as (r & E & O). rewrite E. cbn [bind]. destruct (Z.eqb_spec (2 * d) 0); [lia|]. cbn [bind]. apply Z.mod_divide in Ev; [|lia]. destruct Ev as (f & Ef). assert (f0 : 0 < f) by nia.
      replace ((p - 1) / (2 * d)) with f by (rewrite Ee, Ef; replace (f * 2 * d) with (f * (2 * d)) by ring; rewrite Z.div_mul by lia; reflexivity).
      unfold pow3. destruct (Z.eqb_spec p 0); [lia|]. cbn [bind]. destruct (unity_run n r Hn O P2) as (l & El & Sl & Hl). rewrite El. cbn [bind]. set (w := r ^ f mod p).
      assert (EM : mapM (fun h => pymod (w * h) p) l = Ret (map (fun h => (w * h) mod p) l)). { clear - n0 n2 n1 H. induction l as [|x l IH]; [reflexivity|]. cbn [mapM map]. rewrite IH. unfold pymod. destruct (Z.eqb_spec p 0); [lia|]. reflexivity. }
      rewrite EM. cbn [bind]. eexists. split; [reflexivity|].
      assert (Gw : Z.gcd w p = 1) by (unfold w; rewrite gcd_mod by lia; apply gcd_1_pow; [lia|apply (order_unit p r (p - 1) O)]).
      assert (Ok : Z.odd k = true).
      { destruct (Z.odd k) eqn:Ok; [reflexivity|]. exfalso. rewrite <- Z.negb_even in Ok. apply negb_false_iff, Z.even_spec in Ok as (k2 & Ek2). assert (D2 : (d * 2 | d)). { unfold d at 2. apply Z.gcd_greatest; [exists k2; rewrite Ek, Ek2; ring|exists f; rewrite Ee, Ef; ring]. } apply Z.divide_pos_le in D2; lia. }
      assert (Wn : cg p (w ^ n) (-1)).
      { unfold w. rewrite cg_mod. rewrite <- Z.pow_mul_r by lia. replace (f * n) with ((p - 1) / 2 * k). - rewrite Z.pow_mul_r by (try apply Z.div_pos; lia). rewrite (half_root r O P2). apply neg1_pow; [exact P2|lia|exact Ok].
        - replace ((p - 1) / 2) with (f * d) by (rewrite Ee, Ef; replace (f * 2 * d) with (f * d * 2) by ring; rewrite Z.div_mul by lia; reflexivity). rewrite Ek. ring. }
      split.
      * apply zsort_strict. apply NoDup_map_inj; [clear - Sl; induction Sl as [|a l S IH F]; constructor; [|exact IH]; intros Hin; rewrite Forall_forall in F; specialize (F a Hin); lia|].
        intros x y Hx Hy Exy. apply Hl in Hx as (Hx & _). apply Hl in Hy as (Hy & _). apply (cg_small p); [|exact Hx|exact Hy]. apply (cg_cancel p w _ _ Gw). constructor. exact Exy.
      * intros x. rewrite zsort_In, in_map_iff. split.
        -- intros (h & <- & Hh). apply Hl in Hh as (Hh & Eh). split; [apply Z.mod_pos_bound; lia|]. rewrite cg_mod, Z.pow_mul_l, Wn, Eh. reflexivity.
        -- intros (Hx & Ex). exists ((x * w ^ (p - 2)) mod p). assert (Wi : cg p (w * w ^ (p - 2)) 1). { rewrite <- Z.pow_succ_r by lia. replace (Z.succ (p - 2)) with (p - 1) by lia. apply Fer. exact Wn. } split.
           ++ apply (cg_small p); [|apply Z.mod_pos_bound; lia|exact Hx]. rewrite cg_mod. rewrite cg_mod. replace (w * (x * w ^ (p - 2))) with (x * (w * w ^ (p - 2))) by ring. rewrite Wi, Z.mul_1_r. reflexivity.
           ++ apply Hl. split; [apply Z.mod_pos_bound; lia|]. rewrite cg_mod, Z.pow_mul_l, Ex. rewrite <- Z.pow_mul_r, (Z.mul_comm (p - 2)), Z.pow_mul_r by lia. rewrite Wn.
              replace (-1 * (-1) ^ (p - 2)) with ((-1) ^ (p - 1)) by (rewrite <- Z.pow_succ_r by lia; f_equal; lia). rewrite Ee, Ef. replace (f * 2 * d) with (2 * (f * d)) by ring. rewrite Z.pow_mul_r by nia. change ((-1) ^ 2) with 1. rewrite Z.pow_1_l by nia. reflexivity.
    + exists []. split; [reflexivity|]. split; [constructor|]. intros x. split; [intros []|]. intros (Hx & Ex). exfalso. assert (Oe : Z.odd e = true). { rewrite Zmod_odd in Od. destruct (Z.odd e); [reflexivity|contradiction]. }
      pose proof (Fer x Ex) as E1. assert (E2 : cg p ((x ^ n) ^ e) (-1)) by (rewrite Ex; apply neg1_pow; [exact P2|lia|exact Oe]). rewrite <- Z.pow_mul_r in E2 by lia. replace (n * e) with ((p - 1) * k) in E2 by (rewrite Ee, Ek; ring).
      rewrite Z.pow_mul_r in E2 by lia. rewrite E1, Z.pow_1_l in E2 by lia. apply cg_div in E2. apply Z.divide_pos_le in E2; lia.
Qed.
End Roots.

(** ** Discrete logarithms *)
Section Log.
Variables a b p : Z.
Hypothesis p_pos : 0 < p.

Lemma table_ok am m : 0 <= am < p -> 0 <= m -> exists cache v, foldM (table_step am p) (zrange 1 (m + 1)) ([], am) = Ret (cache, v) /\
  (forall w j, dget cache w = Some j -> 1 <= j <= m /\ w = am ^ j mod p) /\ (forall j, 1 <= j <= m -> dget cache (am ^ j mod p) <> None).
Proof.
  intros Ham Hm. destruct (foldM_range (table_step am p) (fun b s => snd s = am ^ b mod p /\ (forall w j, dget (fst s) w = Some j -> 1 <= j < b /\ w = am ^ j mod p) /\ (forall j, 1 <= j < b -> dget (fst s) (am ^ j mod p) <> None)) 1 (m + 1) ([], am) ltac:(lia)) as ((cache & v) & E & _ & H1 & H2).
  - cbn [fst snd dget]. split; [rewrite Z.pow_1_r, Z.mod_small by exact Ham; reflexivity|]. split; [discriminate|]. intros; lia.
  - intros k (cache & v) Hk (Hv & H1 & H2). cbn [fst snd] in *. unfold table_step, pymod. destruct (Z.eqb_spec p 0); [lia|]. cbn [bind]. eexists. split; [reflexivity|]. cbn [fst snd]. split; [|split].
    + rewrite Hv, Zmult_mod_idemp_l. rewrite Z.pow_add_r, Z.pow_1_r by lia. reflexivity.
    + intros w j. destruct (Z.eq_dec w v) as [->|Nw].
      * rewrite dget_dset_same. intros E. injection E as <-. split; [lia|exact Hv].
      * rewrite dget_dset_other by congruence. intros E. apply H1 in E. split; [lia|tauto].
    + intros j Hj. destruct (Z.eq_dec (am ^ j mod p) v) as [E|Nw]; [rewrite E, dget_dset_same; discriminate|]. rewrite dget_dset_other by congruence. apply H2. destruct (Z.eq_dec j k) as [->|]; [exfalso; apply Nw; symmetry; exact Hv|lia].
  - exists cache, v. cbn [fst snd] in *. split; [exact E|]. split; [intros w j Hw; apply H1 in Hw; split; [lia|tauto]|]. intros j Hj. apply H2. lia.
Qed.

Lemma search_ok cache m : 0 <= m -> forall t k val, Z.of_nat t = m + 1 - k -> 0 <= k -> cg p val (b * a ^ k) -> (1 <= k -> 0 <= val < p) ->
  (exists j k0 v, log_search cache a p m (zrange k (m + 1)) val 1 = Ret (j * m - k0) /\ k <= k0 <= m /\ dget cache v = Some j /\ cg p v (b * a ^ k0)) \/
  (log_search cache a p m (zrange k (m + 1)) val 1 = Ret 1 /\ forall k0, 1 <= k0 -> k <= k0 <= m -> dget cache ((b * a ^ k0) mod p) = None).
Proof.
  intros Hm. induction t as [|t IH]; intros k val Ht Hk Hv Hr; [right; rewrite zrange_nil by lia; split; [reflexivity|intros; lia]|].
  rewrite zrange_cons by lia. cbn [log_search]. destruct (dget cache val) as [j|] eqn:E; [left; exists j, k, val; split; [reflexivity|]; split; [lia|]; split; assumption|].
  unfold pymod. destruct (Z.eqb_spec p 0); [lia|]. cbn [bind]. destruct (IH (k + 1) ((val * a) mod p) ltac:(lia) ltac:(lia)) as [(j & k0 & v & E0 & Hk0 & H)|(E0 & H)].
  - rewrite cg_mod, Hv. rewrite Z.pow_add_r, Z.pow_1_r by lia. rewrite Z.mul_assoc. reflexivity.
  - intros _. apply Z.mod_pos_bound. exact p_pos.
  - left. exists j, k0, v. split; [exact E0|]. split; [lia|exact H].
  - right. split; [exact E0|]. intros k0 H1 Hk0. destruct (Z.eq_dec k0 k) as [->|]; [|apply H; lia]. replace ((b * a ^ k) mod p) with val; [exact E|]. destruct Hv as (Hv). rewrite <- Hv, Z.mod_small; [reflexivity|apply Hr; exact H1].
Qed.
End Log.

Lemma totient_le n : 0 < n -> totient n <= n.
Proof.
  intros Hn. unfold totient. assert (L : forall (f : Z -> bool) l, (length (filter f l) <= length l)%nat) by (intros f l; induction l as [|x l IH]; [apply le_n|]; cbn [filter length]; destruct (f x); cbn [length]; lia). specialize (L (fun k => Z.gcd k n =? 1) (zrange 1 (n + 1))). rewrite zrange_length in L. lia.
Qed.

Lemma discrete_log_run a b p : 0 < p -> exists x, 0 <= x /\ discrete_log a b p = (if a ^ x mod p =? b mod p then Ret x else Raise ValueError) /\
  (Z.gcd a p = 1 -> (exists e, 0 <= e /\ cg p (a ^ e) b) -> cg p (a ^ x) b).
Proof.
  intros Hp. unfold discrete_log. destruct (C04_integer_sqrt_near p ltac:(lia)) as (r & Er & Hr). rewrite Er. cbn [bind]. set (m := r + 1). pose proof (Z.sqrt_spec p ltac:(lia)) as Sq. cbv zeta in Sq. pose proof (Z.sqrt_nonneg p) as Sn. assert (m1 : 1 <= m) by (unfold m; lia). assert (mp : p < m * m) by (unfold m; nia).
  unfold pow3. destruct (Z.eqb_spec p 0); [lia|]. cbn [bind]. set (am := a ^ m mod p). pose proof (Z.mod_pos_bound (a ^ m) p Hp) as Bam. destruct (table_ok p Hp am m Bam ltac:(lia)) as (cache & v & E & H1 & H2). rewrite E. cbn [bind].
  assert (Am : forall j, 0 <= j -> cg p (am ^ j) (a ^ (j * m))) by (intros j Hj; unfold am; rewrite cg_mod; rewrite <- Z.pow_mul_r by lia; rewrite Z.mul_comm; reflexivity).
  unfold pymod. destruct (Z.eqb_spec p 0); [lia|]. destruct (search_ok a b p Hp cache m ltac:(lia) (Z.to_nat (m + 1)) 0 b ltac:(lia) ltac:(lia) ltac:(rewrite Z.pow_0_r, Z.mul_1_r; reflexivity) ltac:(lia)) as [(j & k0 & w & E0 & Hk0 & Hd & Hw)|(E0 & H)]; rewrite E0; cbn [bind].
  - apply H1 in Hd as (Hj & Ew). exists (j * m - k0). split; [nia|]. split; [reflexivity|]. intros G _. apply (cg_cancel p (a ^ k0)); [apply gcd_1_pow; [lia|exact G]|]. rewrite <- Z.pow_add_r by nia. replace (k0 + (j * m - k0)) with (j * m) by ring. rewrite <- Am by lia. rewrite <- (cg_mod p (am ^ j)), <- Ew, Hw. rewrite Z.mul_comm. reflexivity.
  - exists 1. split; [lia|]. split; [reflexivity|]. intros G (e & He & Ee). exfalso. destruct (order_exists p a Hp G) as (d & O & Ld). pose proof (totient_le p Hp). assert (d0 : 0 < d) by (destruct O; assumption).
    pose proof (Z.mod_pos_bound e d d0) as Be. set (e' := e mod d) in *. assert (Ee' : cg p (a ^ e') b).
    { rewrite <- Ee. pose proof (Z.div_mod e d ltac:(lia)) as Dv. fold e' in Dv. rewrite Dv. rewrite Z.pow_add_r, Z.pow_mul_r by (try apply Z.mul_nonneg_nonneg; try apply Z.div_pos; lia). destruct O as (_ & O1 & _). rewrite O1. rewrite Z.pow_1_l by (apply Z.div_pos; lia). rewrite Z.mul_1_l. reflexivity. }
    pose proof (Z.div_mod e' m ltac:(lia)) as Dm. pose proof (Z.mod_pos_bound e' m ltac:(lia)) as Bm. pose proof (Z.div_pos e' m ltac:(lia) ltac:(lia)) as Qm. assert (Q2 : e' / m < m) by (apply Z.div_lt_upper_bound; lia).
    set (k := m - e' mod m). set (j := e' / m + 1). apply (H2 j ltac:(unfold j; lia)). rewrite <- (H k ltac:(unfold k; lia) ltac:(unfold k; lia)). f_equal.
    assert (C : cg p (am ^ j) (b * a ^ k)); [|destruct C as (C); exact C]. rewrite Am by (unfold j; lia). rewrite <- Ee', <- Z.pow_add_r by (unfold k; lia). replace (e' + k) with (j * m) by (unfold j, k; lia). reflexivity.
Qed.
