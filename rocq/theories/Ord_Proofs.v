(** * Orders, primitive roots, roots of unity, discrete logarithms *)
From Coq Require Import ZArith List Lia Znumtheory Bool Sorted Permutation.
From Verif Require Import Base Py Dict Lists Sums NT NT_Euler Core_Model Core_Props Factor_Model Factor_Spec Factor_Proofs Div_Proofs Div_Proofs2 Arith_Spec Arith_Model Arith_Proofs Arith_Props
  NT_Cong NT_Prim NT_Prim2 Ord_Spec Ord_Model.
Import ListNotations.
Open Scope Z_scope.

Lemma order_of_iff n a d : order_of n a d <-> is_order n a d.
Proof.
  unfold order_of, is_order. rewrite cg_iff. split; intros (H0 & H1 & HL); (split; [exact H0|]; split; [exact H1|]; intros k Hk); specialize (HL k Hk); rewrite cg_iff in *; exact HL.
Qed.

(** fact factors m. *)
Definition factors (fact : Z -> outcome (list (Z * Z))) (m : Z) : Prop := exists l, fact m = Ret l /\ factorization m l.

Section Ord.
Context (fact : Z -> outcome (list (Z * Z))).

(** The optional arguments: absent, or right. *)
Definition phi_arg (n : Z) (phi : option Z) : Prop := match phi with None => factors fact n | Some v => v = totient n end.
Definition primes_arg (n : Z) (ds : option (list Z)) : Prop :=
  match ds with None => factors fact (totient n) | Some l => forall q, In q l <-> prime q /\ (q | totient n) end.
Definition divisors_arg (n : Z) (ds : option (list Z)) : Prop :=
  match ds with None => factors fact (totient n) | Some l => StronglySorted Z.lt l /\ forall d, In d l <-> 0 < d /\ (d | totient n) end.

Lemma default_phi_ok n phi : 1 <= n -> phi_arg n phi -> default_phi phi (euler_phi fact (AInt n)) = Ret (totient n).
Proof.
  intros Hn H. destruct phi as [v|]; cbn [default_phi phi_arg] in *; [rewrite H; reflexivity|]. apply C23_euler_phi; [exact Hn|]. left. split; [reflexivity|]. right. exact H.
Qed.

Lemma primes_ok n ds : 1 <= n -> primes_arg n ds -> exists l, default_list ds (prime_divisors fact (Some (totient n)) None) = Ret l /\ forall q, In q l <-> prime q /\ (q | totient n).
Proof.
  intros Hn H. pose proof (totient_pos n ltac:(lia)) as T. destruct ds as [l|]; cbn [default_list primes_arg] in *; [exists l; auto|]. destruct H as (l & E & F). unfold prime_divisors, get_factorization. rewrite Z.abs_eq by lia. rewrite E. cbn [bind].
  exists (map fst l). split; [reflexivity|]. intros q. split.
  - intros Hq. assert (P : prime q) by (apply in_map_iff in Hq as ((q', e) & <- & Hq); destruct F as (_ & A & _); apply A in Hq; tauto). split; [exact P|]. apply (factorization_prime_divisor _ l q F P). exact Hq.
  - intros (P & D). apply (factorization_prime_divisor _ l q F P). exact D.
Qed.

Lemma one_mod n a k : 2 <= n -> (a ^ k mod n =? 1) = true <-> cg n (a ^ k) 1.
Proof. intros Hn. rewrite Z.eqb_eq, cg_iff, (Z.mod_small 1) by lia. reflexivity. Qed.

Lemma no_power_ok a n phi ds : 2 <= n -> (forall q, In q ds -> q <> 0) -> no_power_is_1 a n phi ds = Ret (forallb (fun d => negb (a ^ (phi / d) mod n =? 1)) ds).
Proof.
  intros Hn. induction ds as [|d ds IH]; intros Hd; [reflexivity|]. cbn [no_power_is_1 forallb]. unfold pydiv, pow3. destruct (Z.eqb_spec d 0) as [E|_]; [exfalso; apply (Hd d); [left; reflexivity|exact E]|]. cbn [bind].
  destruct (Z.eqb_spec n 0); [lia|]. cbn [bind]. destruct (a ^ (phi / d) mod n =? 1); cbn [negb andb]; [reflexivity|]. apply IH. intros q Hq. apply Hd. right. exact Hq.
Qed.

Lemma criterion n a ds : 2 <= n -> Z.gcd a n = 1 -> (forall q, In q ds <-> prime q /\ (q | totient n)) ->
  (forallb (fun d => negb (a ^ (totient n / d) mod n =? 1)) ds = true <-> is_order n a (totient n)).
Proof.
  intros Hn G Hd. pose proof (totient_pos n ltac:(lia)) as T. rewrite forallb_forall. split.
  - intros H. apply order_intro; [exact T|apply euler_totient; [lia|exact G]| |lia]. intros q Pq Dq C. assert (Hq : In q ds) by (apply Hd; auto). specialize (H q Hq). apply (one_mod n a (totient n / q) Hn) in C. rewrite C in H. discriminate.
  - intros (_ & _ & HL) q Hq. apply Hd in Hq as (Pq & Dq). pose proof (prime_ge2 q Pq). destruct (a ^ (totient n / q) mod n =? 1) eqn:E; [|reflexivity]. apply (one_mod n a _ Hn) in E. exfalso. apply (HL (totient n / q)); [|exact E]. destruct Dq as (c & Ec). rewrite Ec, Z.div_mul by lia. nia.
Qed.

Lemma is_primitive_root_ok a n phi ds : 2 <= n -> phi_arg n phi -> primes_arg n ds ->
  exists b, is_primitive_root fact a n phi ds = Ret b /\ (b = true <-> primitive n a).
Proof.
  intros Hn Hphi Hds. unfold is_primitive_root. destruct (Z.leb_spec n 1); [lia|]. destruct ((4 <? n) && (n mod 4 =? 0)) eqn:E4.
  - exists false. split; [reflexivity|]. split; [discriminate|]. intros (_ & O). exfalso. apply andb_true_iff in E4 as (L & D). apply Z.ltb_lt in L. apply Z.eqb_eq in D. apply Z.mod_divide in D; [|lia]. apply order_of_iff in O. apply (prim_four n a L D O).
  - rewrite C01_gcd. cbn [bind]. destruct (Z.eqb_spec (Z.gcd a n) 1) as [G|G]; cbn [negb].
    + rewrite (default_phi_ok n phi ltac:(lia) Hphi). cbn [bind]. destruct (primes_ok n ds ltac:(lia) Hds) as (l & E & Hl). rewrite E. cbn [bind]. rewrite no_power_ok; [|exact Hn|intros q Hq ->; apply Hl in Hq as (P & _); apply prime_ge2 in P; lia].
      eexists. split; [reflexivity|]. rewrite (criterion n a l Hn G Hl). unfold primitive. rewrite order_of_iff. tauto.
    + exists false. split; [reflexivity|]. split; [discriminate|]. intros (G' & _). contradiction.
Qed.

(** ** The least primitive root *)
Lemma first_root_ok n ds : 2 <= n -> (forall q, In q ds <-> prime q /\ (q | totient n)) -> forall t a, Z.of_nat t = n - a -> 1 <= a ->
  exists r, first_root fact n (totient n) ds (zrange a n) = Ret r /\
    match r with Some g => a <= g < n /\ primitive n g /\ forall x, a <= x < g -> ~ primitive n x | None => forall x, a <= x < n -> ~ primitive n x end.
Proof.
  intros Hn Hds. induction t as [|t IH]; intros a Ht Ha.
  - rewrite zrange_nil by lia. exists None. split; [reflexivity|]. intros; lia.
  - rewrite zrange_cons by lia. cbn [first_root]. destruct (is_primitive_root_ok a n (Some (totient n)) (Some ds) Hn eq_refl Hds) as (b & E & Hb). rewrite E. cbn [bind]. destruct b.
    + exists (Some a). split; [reflexivity|]. split; [lia|]. split; [apply Hb; reflexivity|]. intros; lia.
    + assert (Na : ~ primitive n a) by (intros P; apply Hb in P; discriminate). destruct (IH (a + 1) ltac:(lia) ltac:(lia)) as (r & Er & Hr). exists r. split; [exact Er|].
      destruct r as [g|]; [destruct Hr as (H1 & H2 & H3); split; [lia|]; split; [exact H2|]|]; intros x Hx; destruct (Z.eq_dec x a) as [->|]; try exact Na; [apply H3|apply Hr]; lia.
Qed.

Lemma primitive_mod n a : 0 < n -> primitive n a -> primitive n (a mod n).
Proof.
  intros Hn (G & O). split; [rewrite gcd_mod by exact Hn; exact G|]. apply order_of_iff. apply (order_cg n a); [symmetry; apply cg_mod|]. apply order_of_iff. exact O.
Qed.

(** Which factorizations have a primitive root. *)
Definition has_root (n : Z) : Prop := exists g, primitive n g.

Lemma order_primitive n g : is_order n g (totient n) -> primitive n g.
Proof. intros O. split; [apply (order_unit n g _ O)|apply order_of_iff; exact O]. Qed.

Lemma has_root_4 : has_root 4.
Proof. exists 3. apply order_primitive. change (totient 4) with 2. split; [lia|]. split; [constructor; reflexivity|]. intros k Hk (E). replace k with 1 in E by lia. discriminate. Qed.
Lemma has_root_2 : has_root 2.
Proof. exists 1. apply order_primitive. change (totient 2) with 1. split; [lia|]. split; [constructor; reflexivity|]. lia. Qed.
Lemma has_root_pow p k : prime p -> p <> 2 -> 1 <= k -> has_root (p ^ k).
Proof. intros Hp H2 Hk. destruct (prim_prime_power p k Hp H2 Hk) as (g & Hg). exists g. apply order_primitive. rewrite totient_pow by assumption. exact Hg. Qed.

Lemma no_root_split a b : 2 < a -> 2 < b -> Z.gcd a b = 1 -> ~ has_root (a * b).
Proof. intros Ha Hb G (g & _ & O). apply order_of_iff in O. apply (prim_split a b g Ha Hb G O). Qed.

Lemma odd_prime_pow p e : prime p -> p <> 2 -> 1 <= e -> 2 < p ^ e.
Proof. intros Hp H2 He. pose proof (prime_ge2 p Hp). apply Z.lt_le_trans with (p ^ 1); [rewrite Z.pow_1_r; lia|apply Z.pow_le_mono_r; lia]. Qed.

Lemma even_pow2 e x : 1 <= e -> (2 ^ e * x) mod 2 = 0.
Proof. intros He. replace e with (Z.succ (e - 1)) by lia. rewrite Z.pow_succ_r by lia. replace (2 * 2 ^ (e - 1) * x) with (2 ^ (e - 1) * x * 2) by ring. apply Z_mod_mult. Qed.
Lemma four_pow2 e x : 2 <= e -> (2 ^ e * x) mod 4 = 0.
Proof. intros He. replace e with (e - 2 + 2) by lia. rewrite Z.pow_add_r by lia. change (2 ^ 2) with 4. replace (2 ^ (e - 2) * 4 * x) with (2 ^ (e - 2) * x * 4) by ring. apply Z_mod_mult. Qed.

Lemma root_cases n l : factorization n l -> 2 <= n ->
  (if (n mod 4 =? 0) && negb (n =? 4) then ~ has_root n
   else if (2 <? length l)%nat then ~ has_root n
   else if (n mod 2 =? 1) && (1 <? length l)%nat then ~ has_root n
   else has_root n).
Proof.
  intros F Hn. destruct ((n mod 4 =? 0) && negb (n =? 4)) eqn:E4.
  { apply andb_true_iff in E4 as (D & N). apply Z.eqb_eq in D. apply Z.mod_divide in D; [|lia]. apply negb_true_iff, Z.eqb_neq in N. intros (g & _ & O). apply order_of_iff in O. apply (prim_four n g); [apply Z.divide_pos_le in D as D'; lia|exact D|exact O]. }
  assert (N4 : n mod 4 = 0 -> n = 4). { intros D. rewrite D, Z.eqb_refl in E4. cbn [andb] in E4. apply negb_false_iff, Z.eqb_eq in E4. exact E4. }
  destruct l as [|(p, e) l]; [destruct F as (_ & _ & V); cbn in V; lia|]. destruct (factorization_cons n p e l F) as (Hp & He & En & Fl & Gt). pose proof (prime_ge2 p Hp) as p2. pose proof (factorization_pos _ _ Fl) as Pm.
  destruct l as [|(q, k) l].
  - cbn [length]. change (2 <? 1)%nat with false. change (1 <? 1)%nat with false. cbn [andb]. rewrite andb_false_r. change (fac_value []) with 1 in En. rewrite Z.mul_1_r in En. rewrite En.
    destruct (Z.eq_dec p 2) as [->|P2]; [|apply has_root_pow; assumption]. destruct (Z.eq_dec e 1) as [->|E1]; [exact has_root_2|]. rewrite <- En. rewrite N4; [exact has_root_4|]. rewrite En. rewrite <- (Z.mul_1_r (2 ^ e)). apply four_pow2. lia.
  - destruct (factorization_cons _ q k l Fl) as (Hq & Hk & Em & Fl2 & Gt2). pose proof (factorization_pos _ _ Fl2) as Pm2. assert (Lpq : p < q) by (apply (Gt q k); left; reflexivity). pose proof (odd_prime_pow q k Hq ltac:(lia) Hk) as Q2.
    assert (G1 : Z.gcd (p ^ e) (fac_value ((q, k) :: l)) = 1) by (apply gcd_1_pow; [lia|apply coprime_rest; assumption]).
    assert (G2 : Z.gcd (q ^ k) (fac_value l) = 1) by (apply gcd_1_pow; [lia|apply coprime_rest; assumption]).
    assert (Odd : p <> 2 -> ~ has_root n). { intros P2. rewrite En. apply no_root_split; [apply odd_prime_pow; assumption| |exact G1]. rewrite Em. nia. }
    destruct l as [|(r, j) l].
    + cbn [length]. change (2 <? 2)%nat with false. change (1 <? 2)%nat with true. rewrite andb_true_r. change (fac_value []) with 1 in Em. rewrite Z.mul_1_r in Em. destruct (Z.eqb_spec (n mod 2) 1) as [M|M].
      * apply Odd. intros ->. rewrite En in M. rewrite even_pow2 in M by exact He. discriminate.
      * assert (P2 : p = 2). { destruct (Z.eq_dec p 2) as [|P2]; [assumption|]. exfalso. apply M. assert (O : Z.odd n = true). { rewrite En, Em, Z.odd_mul, !Z.odd_pow by lia. assert (Op : forall x, prime x -> x <> 2 -> Z.odd x = true). { intros x Px X2. destruct (Z.odd x) eqn:Ox; [reflexivity|]. exfalso. apply X2. rewrite <- Z.negb_even in Ox. apply negb_false_iff, Z.even_spec in Ox as (y & ->). apply prime_even; [exact Px|apply Z.divide_factor_l]. } rewrite (Op p Hp P2), (Op q Hq) by lia. reflexivity. }
          rewrite Zmod_odd, O. reflexivity. }
        subst p. assert (E1 : e = 1). { destruct (Z.eq_dec e 1) as [|E1]; [assumption|]. exfalso. assert (D : n mod 4 = 0) by (rewrite En; apply four_pow2; lia). apply N4 in D. assert (4 <= 2 ^ e) by (change 4 with (2 ^ 2); apply Z.pow_le_mono_r; lia). nia. }
        subst e. rewrite En, Em, Z.pow_1_r. destruct (prim_double q k Hq ltac:(lia) Hk) as (g & Hg). exists g. apply order_primitive. exact Hg.
    + cbn [length]. change (2 <? S (S (S (length l))))%nat with true. destruct (factorization_cons _ r j l Fl2) as (Hr & Hj & Er & Fl3 & Gt3). pose proof (factorization_pos _ _ Fl3) as Pm3. assert (Lqr : q < r) by (apply (Gt2 r j); left; reflexivity).
      pose proof (odd_prime_pow r j Hr ltac:(lia) Hj) as R2. rewrite En, Em, Z.mul_assoc. apply no_root_split; [assert (0 < p ^ e) by (apply Z.pow_pos_nonneg; lia); nia|rewrite Er; nia|]. apply gcd_1_mul; [|exact G2].
      rewrite Em in G1. apply (gcd_1_div (p ^ e) (q ^ k * fac_value ((r, j) :: l))); [apply Z.divide_factor_r|exact G1].
Qed.

Definition fac_arg (n : Z) (f : option (list (Z * Z))) : Prop := match f with None => factors fact n | Some l => factorization n l end.

Lemma primitive_root_ok n f phi ds : 2 <= n -> fac_arg n f -> (phi = None \/ phi = Some (totient n)) -> primes_arg n ds ->
  (has_root n /\ exists g, primitive_root fact n f phi ds = Ret (Some g) /\ 1 <= g < n /\ primitive n g /\ forall x, 1 <= x < g -> ~ primitive n x) \/
  (~ has_root n /\ primitive_root fact n f phi ds = Raise ValueError).
Proof.
  intros Hn Hf Hphi Hds. unfold primitive_root. assert (X : exists l, (match f with Some l => Ret l | None => fact n end) = Ret l /\ factorization n l) by (destruct f as [l|]; [exists l; auto|exact Hf]).
  destruct X as (l & El & F). rewrite El. cbn [bind]. pose proof (root_cases n l F Hn) as R. destruct ((n mod 4 =? 0) && negb (n =? 4)); [right; auto|]. destruct (2 <? length l)%nat; [right; auto|]. destruct ((n mod 2 =? 1) && (1 <? length l)%nat); [right; auto|].
  left. split; [exact R|]. assert (Ep : default_phi phi (euler_phi fact (AFac l)) = Ret (totient n)).
  { destruct Hphi as [-> | ->]; [|reflexivity]. cbn [default_phi]. apply C23_euler_phi; [lia|]. right. exists l. split; [reflexivity|]. split; [|exact F]. intros ->. destruct F as (_ & _ & V). cbn in V. lia. }
  rewrite Ep. cbn [bind]. destruct (primes_ok n ds ltac:(lia) Hds) as (ql & E & Hl). rewrite E. cbn [bind]. destruct (first_root_ok n ql Hn Hl (Z.to_nat (n - 1)) 1 ltac:(lia) ltac:(lia)) as (r & Er & Hr). rewrite Er.
  destruct r as [g|]; [exists g; split; [reflexivity|exact Hr]|]. exfalso. destruct R as (g & Hg). pose proof (primitive_mod n g ltac:(lia) Hg) as P. pose proof (Z.mod_pos_bound g n ltac:(lia)) as B. apply (Hr (g mod n)); [|exact P].
  destruct (Z.eq_dec (g mod n) 0) as [Z0|]; [|lia]. exfalso. destruct P as (G & _). rewrite Z0, Z.gcd_0_l in G. lia.
Qed.

(** ** Orders *)
Lemma first_exponent_ok a n d : 2 <= n -> is_order n a d -> forall l, StronglySorted Z.lt l -> (forall x, In x l -> 0 < x) -> In d l -> first_exponent a n l = Ret (Some d).
Proof.
  intros Hn O. destruct O as (Hd & H1 & HL). induction l as [|x l IH]; intros S P Hin; [destruct Hin|]. cbn [first_exponent]. unfold pow3. destruct (Z.eqb_spec n 0); [lia|]. cbn [bind]. inversion S as [|? ? S1 F]; subst. rewrite Forall_forall in F.
  destruct (a ^ x mod n =? 1) eqn:E.
  - apply (one_mod n a x Hn) in E. destruct Hin as [<-|Hin]; [reflexivity|]. exfalso. apply (HL x); [split; [apply P; left; reflexivity|apply F; exact Hin]|exact E].
  - destruct Hin as [<-|Hin]; [exfalso; apply (one_mod n a x Hn) in H1; congruence|]. apply IH; [exact S1|intros y Hy; apply P; right; exact Hy|exact Hin].
Qed.

Lemma multiplicative_order_ok a n phi ds : 2 <= n -> Z.gcd a n = 1 -> phi_arg n phi -> divisors_arg n ds ->
  exists d, multiplicative_order fact a n phi ds = Ret (Some d) /\ order_of n a d.
Proof.
  intros Hn G Hphi Hds. unfold multiplicative_order. rewrite C01_gcd. cbn [bind]. rewrite G. cbn [Z.eqb Pos.eqb negb]. rewrite (default_phi_ok n phi ltac:(lia) Hphi). cbn [bind]. pose proof (totient_pos n ltac:(lia)) as T.
  assert (X : exists l, default_list ds (divisors fact (Some (totient n)) None) = Ret l /\ StronglySorted Z.lt l /\ forall d, In d l <-> 0 < d /\ (d | totient n)).
  { destruct ds as [l|]; cbn [default_list divisors_arg] in *; [exists l; split; [reflexivity|exact Hds]|]. destruct Hds as (l & E & F). rewrite <- (Z.abs_eq (totient n)) in E, F by lia. exact (divisors_ok fact (totient n) l E F). }
  destruct X as (l & E & S & Hl). rewrite E. cbn [bind]. destruct (order_exists n a ltac:(lia) G) as (d & O & _). exists d. split; [|apply order_of_iff; exact O].
  apply (first_exponent_ok a n d Hn O l S); [intros x Hx; apply Hl in Hx; tauto|]. apply Hl. split; [destruct O; assumption|]. apply (order_divide n a d _ O); [lia|]. apply euler_totient; [lia|exact G].
Qed.
End Ord.
