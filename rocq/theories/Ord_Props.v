(** * Primitive roots, orders, roots of unity, discrete logarithms: C12; the Carmichael function: C23 *)
From Coq Require Import ZArith List Bool Lia Znumtheory Sorted.
From Verif Require Import Base NT Core_Model Core_Props Factor_Model Factor_Spec Div_Proofs Factor_Props Arith_Spec Arith_Model Arith_Props NT_Cong NT_Prim NT_Prim2 Ord_Spec Ord_Model Ord_Proofs Ord_Proofs2.
Import ListNotations.
Open Scope Z_scope.

(** [factors fact m]: [factor(m)] returns the factorization of [m]. [phi_arg], [primes_arg],
    [divisors_arg], [fac_arg], [root_arg]: an optional argument is either absent (and the factorization
    needed to compute it is found) or has the value the documentation asks for. *)

(** ** is_primitive_root *)
Theorem C12_is_primitive_root : forall fact a n phi ds, 2 <= n -> phi_arg fact n phi -> primes_arg fact n ds ->
  exists b, is_primitive_root fact a n phi ds = Ret b /\ (b = true <-> primitive n a).
Proof. exact is_primitive_root_ok. Qed.

Theorem C12_is_primitive_root_error : forall fact a n phi ds, n <= 1 -> is_primitive_root fact a n phi ds = Raise ValueError.
Proof. intros fact a n phi ds H. unfold is_primitive_root. destruct (Z.leb_spec n 1); [reflexivity|lia]. Qed.

(** With the library's own [factor], for moduli up to 10^12. *)
Lemma totient_range n : 1 <= n -> 0 < totient n <= n.
Proof. intros H. split; [apply totient_pos; lia|apply totient_le; lia]. Qed.
Lemma small_factors rnd fuel n : (1 <= fuel)%nat -> 1 <= n <= 10 ^ 12 -> factors (factor_default rnd fuel) n.
Proof. intros Hf Hn. apply small_fact; [exact Hf|lia]. Qed.

Theorem C12_is_primitive_root_small : forall rnd fuel a n, (1 <= fuel)%nat -> 2 <= n <= 10 ^ 12 ->
  exists b, is_primitive_root (factor_default rnd fuel) a n None None = Ret b /\ (b = true <-> primitive n a).
Proof.
  intros rnd fuel a n Hf Hn. pose proof (totient_range n ltac:(lia)). apply is_primitive_root_ok; [lia|apply small_factors; [exact Hf|lia]|apply small_factors; [exact Hf|lia]].
Qed.

(** ** primitive_root: the least one, and an error exactly when there is none. *)
Theorem C12_primitive_root : forall fact n f phi ds, 2 <= n -> fac_arg fact n f -> (phi = None \/ phi = Some (totient n)) -> primes_arg fact n ds ->
  ((exists g, primitive n g) /\ exists g, primitive_root fact n f phi ds = Ret (Some g) /\ 1 <= g < n /\ primitive n g /\ forall x, 1 <= x < g -> ~ primitive n x) \/
  (~ (exists g, primitive n g) /\ primitive_root fact n f phi ds = Raise ValueError).
Proof. exact primitive_root_ok. Qed.

Theorem C12_primitive_root_small : forall rnd fuel n, (1 <= fuel)%nat -> 2 <= n <= 10 ^ 12 ->
  ((exists g, primitive n g) /\ exists g, primitive_root (factor_default rnd fuel) n None None None = Ret (Some g) /\ 1 <= g < n /\ primitive n g /\ forall x, 1 <= x < g -> ~ primitive n x) \/
  (~ (exists g, primitive n g) /\ primitive_root (factor_default rnd fuel) n None None None = Raise ValueError).
Proof.
  intros rnd fuel n Hf Hn. pose proof (totient_range n ltac:(lia)). apply primitive_root_ok; [lia|apply small_factors; [exact Hf|lia]|left; reflexivity|apply small_factors; [exact Hf|lia]].
Qed.

(** Every prime has a primitive root, so [primitive_root] never fails on a prime. *)
Theorem C12_primitive_root_prime : forall p, prime p -> exists g, primitive p g.
Proof. intros p Hp. destruct (prim_prime p Hp) as (g & O). exists g. apply order_primitive. rewrite totient_prime by exact Hp. exact O. Qed.

(** ** multiplicative_order *)
Theorem C12_multiplicative_order : forall fact a n phi ds, 2 <= n -> Z.gcd a n = 1 -> phi_arg fact n phi -> divisors_arg fact n ds ->
  exists d, multiplicative_order fact a n phi ds = Ret (Some d) /\ order_of n a d.
Proof. exact multiplicative_order_ok. Qed.

Theorem C12_multiplicative_order_error : forall fact a n phi ds, Z.gcd a n <> 1 -> multiplicative_order fact a n phi ds = Raise ValueError.
Proof. intros fact a n phi ds H. unfold multiplicative_order. rewrite C01_gcd. cbn [bind]. destruct (Z.eqb_spec (Z.gcd a n) 1); [contradiction|reflexivity]. Qed.

Theorem C12_multiplicative_order_small : forall rnd fuel a n, (1 <= fuel)%nat -> 2 <= n <= 10 ^ 12 -> Z.gcd a n = 1 ->
  exists d, multiplicative_order (factor_default rnd fuel) a n None None = Ret (Some d) /\ order_of n a d.
Proof.
  intros rnd fuel a n Hf Hn G. pose proof (totient_range n ltac:(lia)). apply multiplicative_order_ok; [lia|exact G|apply small_factors; [exact Hf|lia]|apply small_factors; [exact Hf|lia]].
Qed.

(** For the modulus 1 every element has order 1, but the result is None: a power is compared with 1, not with 1 % n. *)
Theorem C12_multiplicative_order_refuted : forall rnd fuel a, (1 <= fuel)%nat ->
  order_of 1 a 1 /\ multiplicative_order (factor_default rnd fuel) a 1 None None = Ret None.
Proof.
  intros rnd fuel a Hf. split; [split; [lia|]; split; [rewrite !Z.mod_1_r; reflexivity|intros; lia]|]. unfold multiplicative_order. rewrite C01_gcd, Z.gcd_1_r. cbn [bind Z.eqb Pos.eqb negb].
  assert (E : default_phi None (euler_phi (factor_default rnd fuel) (AInt 1)) = Ret 1) by reflexivity. rewrite E. cbn [bind default_list].
  destruct (C19_divisors rnd fuel Hf 1 ltac:(lia) ltac:(lia)) as (r & Er & _ & Hr). rewrite Er. cbn [bind]. clear. induction r as [|d r IH]; [reflexivity|]. cbn [first_exponent pow3 Z.eqb bind]. rewrite Z.mod_1_r. exact IH.
Qed.

(** ** Roots of 1 and of -1 modulo a prime: all of them, in increasing order *)
Theorem C12_roots_of_unity : forall fact p n g, prime p -> 1 <= n -> root_arg fact p g ->
  exists l, nth_roots_of_unity_mod_p fact n p g = Ret l /\ StronglySorted Z.lt l /\ forall x, In x l <-> 0 <= x < p /\ (p | x ^ n - 1).
Proof.
  intros fact p n g Hp Hn Hg. destruct (unity_ok fact p Hp n g ltac:(lia) Hg) as (l & E & S & H). exists l. split; [exact E|]. split; [exact S|]. intros x. rewrite H, cg_div. reflexivity.
Qed.

Theorem C12_roots_of_minus1 : forall fact p n g, prime p -> 1 <= n -> root_arg fact p g ->
  exists l, nth_roots_of_minus1_mod_p fact n p g = Ret l /\ StronglySorted Z.lt l /\ forall x, In x l <-> 0 <= x < p /\ (p | x ^ n + 1).
Proof.
  intros fact p n g Hp Hn Hg. destruct (minus1_ok fact p Hp n g ltac:(lia) Hg) as (l & E & S & H). exists l. split; [exact E|]. split; [exact S|]. intros x. rewrite H, cg_div. replace (x ^ n - -1) with (x ^ n + 1) by ring. reflexivity.
Qed.

Lemma small_root_arg rnd fuel p : (1 <= fuel)%nat -> prime p -> p <= 10 ^ 12 -> root_arg (factor_default rnd fuel) p None.
Proof. intros Hf Hp L. pose proof (prime_ge2 p Hp). split; (apply small_factors; [exact Hf|lia]). Qed.

(** ** discrete_log *)
(** Whatever it returns is a logarithm, for every a, b and every positive modulus. *)
Theorem C12_discrete_log_sound : forall a b p x, 0 < p -> discrete_log a b p = Ret x -> 0 <= x /\ (p | a ^ x - b).
Proof.
  intros a b p x Hp E. destruct (discrete_log_run a b p Hp) as (y & Hy & Er & _). rewrite Er in E. destruct (Z.eqb_spec (a ^ y mod p) (b mod p)) as [C|]; [|discriminate]. injection E as <-. split; [exact Hy|]. apply cg_div. constructor. exact C.
Qed.

(** It finds one whenever there is one and a is a unit; otherwise it raises ValueError. *)
Theorem C12_discrete_log_complete : forall a b p, 0 < p -> Z.gcd a p = 1 -> (exists e, 0 <= e /\ (p | a ^ e - b)) -> exists x, discrete_log a b p = Ret x.
Proof.
  intros a b p Hp G (e & He & D). destruct (discrete_log_run a b p Hp) as (y & Hy & Er & H). assert (C : cg p (a ^ y) b) by (apply H; [exact G|exists e; split; [exact He|apply cg_div; exact D]]).
  exists y. rewrite Er. destruct C as (C). rewrite C, Z.eqb_refl. reflexivity.
Qed.

Theorem C12_discrete_log_error : forall a b p, 0 < p -> ~ (exists e, 0 <= e /\ (p | a ^ e - b)) -> discrete_log a b p = Raise ValueError.
Proof.
  intros a b p Hp N. destruct (discrete_log_run a b p Hp) as (y & Hy & Er & _). rewrite Er. destruct (Z.eqb_spec (a ^ y mod p) (b mod p)) as [C|]; [|reflexivity]. exfalso. apply N. exists y. split; [exact Hy|]. apply cg_div. constructor. exact C.
Qed.

(** ** C23: carmichael_lambda is the exponent of the group of units *)
Lemma divides_self_pos l m : 0 <= m -> (forall c, (m | c) <-> (forall x : Z, In x l -> (x | c))) -> (forall x, In x l -> 0 < x) -> 0 < m.
Proof.
  intros Hm H P. destruct (Z.eq_dec m 0) as [->|]; [|lia]. exfalso. assert (D : (0 | fold_right Z.mul 1 l)).
  { apply H. clear H. induction l as [|y l IH]; intros x Hx; [destruct Hx|]. cbn [fold_right]. destruct Hx as [->|Hx]; [apply Z.divide_factor_l|]. apply Z.divide_mul_r. apply IH; [intros z Hz; apply P; right; exact Hz|exact Hx]. }
  apply Z.divide_0_l in D. assert (Q : 0 < fold_right Z.mul 1 l); [|lia]. clear D H. induction l as [|y l IH]; cbn [fold_right]; [lia|]. pose proof (P y (or_introl eq_refl)). assert (0 < fold_right Z.mul 1 l) by (apply IH; intros z Hz; apply P; right; exact Hz). nia.
Qed.

Lemma carmichael_list n l : factorization n l -> 2 <= n -> exists m, lcm_list (map carmichael_term l) = Ret m /\ is_carmichael n m.
Proof.
  intros F Hn. destruct (carmichael_fac n l F Hn) as (H1 & H2).
  assert (P : forall x, In x (map carmichael_term l) -> 0 < x). { intros x Hx. apply in_map_iff in Hx as ((p, e) & <- & Hin). destruct F as (_ & Fp & _). apply (term_ok p e); apply (Fp p e); exact Hin. }
  assert (L : exists m, lcm_list (map carmichael_term l) = Ret m /\ 0 <= m /\ forall c, (m | c) <-> (forall x, In x (map carmichael_term l) -> (x | c))).
  { destruct l as [|x [|y l]]; [|exists (carmichael_term x)|apply C01_lcm_list; cbn [map length]; lia].
    - exfalso. destruct F as (_ & _ & V). cbn in V. lia.
    - split; [apply C01_short_lists|]. split; [apply Z.lt_le_incl, P; left; reflexivity|]. intros c. cbn [map]. split; [intros D z [<-|[]]; exact D|intros D; apply D; left; reflexivity]. }
  destruct L as (m & E & Hm & HL). pose proof (divides_self_pos _ m Hm HL P) as m0. exists m. split; [exact E|]. split.
  - split; [exact m0|]. intros a G. apply cg_div. apply H1; [exact G|exact Hm|]. intros pe Hpe. apply HL; [apply Z.divide_refl|]. apply in_map. exact Hpe.
  - intros k (k0 & Hk). apply Z.divide_pos_le; [exact k0|]. apply HL. intros x Hx. apply in_map_iff in Hx as (pe & <- & Hpe). apply (H2 k k0); [|exact Hpe]. intros a G. apply cg_div. apply Hk. exact G.
Qed.

Theorem C23_carmichael_lambda : forall fact a n, 1 <= n -> denotes fact a n -> exists m, carmichael_lambda fact a = Ret m /\ is_carmichael n m.
Proof.
  intros fact a n Hn D. assert (One : is_carmichael 1 1) by (split; [split; [lia|intros; apply Z.divide_1_l]|intros k (H & _); lia]).
  destruct D as [(-> & H)|(l & -> & Nl & F)]; cbn [carmichael_lambda].
  - destruct (Z.eqb_spec n 1) as [->|N1]; [exists 1; split; [reflexivity|exact One]|]. destruct (Z.leb_spec n 0); [lia|]. destruct H as [|(l & E & F)]; [contradiction|]. rewrite E. cbn [bind]. apply carmichael_list; [exact F|lia].
  - destruct l as [|(p, e) l]; [contradiction|]. pose proof F as F'. apply factorization_cons in F' as (Hp & He & En & Fl & _). pose proof (prime_ge2 p Hp). destruct (Z.ltb_spec 0 p); [|lia]. apply carmichael_list; [exact F|].
    pose proof (factorization_pos _ _ Fl). assert (p ^ 1 <= p ^ e) by (apply Z.pow_le_mono_r; lia). rewrite Z.pow_1_r in *. rewrite En. nia.
Qed.

(** ** Concrete cases *)
Example C12_ex rnd :
  is_primitive_root (factor_default rnd 1) 3 14 None None = Ret true /\ is_primitive_root (factor_default rnd 1) 2 7 None None = Ret false /\
  primitive_root (factor_default rnd 1) 41 None None None = Ret (Some 6) /\ primitive_root (factor_default rnd 1) 15 None None None = Raise ValueError /\
  multiplicative_order (factor_default rnd 1) 2 15 None None = Ret (Some 4) /\
  nth_roots_of_unity_mod_p (factor_default rnd 1) 4 13 None = Ret [1; 5; 8; 12] /\ nth_roots_of_minus1_mod_p (factor_default rnd 1) 2 13 None = Ret [5; 8] /\
  nth_roots_of_minus1_mod_p (factor_default rnd 1) 4 13 None = Ret [] /\ discrete_log 2 5 11 = Ret 4 /\ discrete_log 4 2 7 = Ret 8 /\ discrete_log 2 3 7 = Raise ValueError.
Proof. vm_compute. repeat split; reflexivity. Qed.

Print Assumptions C12_is_primitive_root.
Print Assumptions C12_primitive_root.
Print Assumptions C12_multiplicative_order.
Print Assumptions C12_multiplicative_order_refuted.
Print Assumptions C12_roots_of_unity.
Print Assumptions C12_roots_of_minus1.
Print Assumptions C12_discrete_log_sound.
Print Assumptions C12_discrete_log_complete.
Print Assumptions C23_carmichael_lambda.
