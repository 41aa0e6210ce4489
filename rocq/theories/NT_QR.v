(** * Euler's criterion, Gauss's lemma and quadratic reciprocity *)
From Coq Require Import ZArith List Bool Lia Znumtheory Permutation.
From Verif Require Import Base Py Lists Lists2 Sums NT NT_Euler NT_Cong NT_Prim Ord_Proofs2 QR_Spec.
Import ListNotations.
Open Scope Z_scope.

Lemma legendre_range a p : -1 <= legendre a p <= 1.
Proof. unfold legendre. destruct (_ =? 0); [lia|]. destruct (existsb _ _); lia. Qed.
Lemma legendre_cg a b p : cg p a b -> legendre a p = legendre b p.
Proof. intros (E). unfold legendre. rewrite E. reflexivity. Qed.
Lemma small_eq p x y : 3 <= p -> -1 <= x <= 1 -> -1 <= y <= 1 -> cg p x y -> x = y.
Proof. intros Hp Hx Hy C. apply cg_div in C. destruct C as (c & E). assert (c = 0) by nia. subst. lia. Qed.

Lemma neg1_cases x : 0 <= x -> (-1) ^ x = if Z.odd x then -1 else 1.
Proof.
  intros Hx. destruct (Z.Even_or_Odd x) as [(c & E)|(c & E)]; rewrite E.
  - rewrite Z.pow_mul_r by lia. change ((-1) ^ 2) with 1. rewrite Z.pow_1_l by lia. rewrite Z.odd_mul. reflexivity.
  - rewrite Z.pow_add_r, Z.pow_mul_r by lia. change ((-1) ^ 2) with 1. rewrite Z.pow_1_l by lia. rewrite Z.odd_add, Z.odd_mul. reflexivity.
Qed.
Lemma neg1_parity x y : 0 <= x -> 0 <= y -> cg 2 x y -> (-1) ^ x = (-1) ^ y.
Proof. intros Hx Hy (E). rewrite !neg1_cases by assumption. rewrite !Zmod_odd in E. destruct (Z.odd x), (Z.odd y); try reflexivity; discriminate. Qed.

Lemma zsum_cg n {A} (f g : A -> Z) l : (forall x, In x l -> cg n (f x) (g x)) -> cg n (zsum (map f l)) (zsum (map g l)).
Proof.
  induction l as [|x l IH]; intros H; [reflexivity|]. cbn [map]. rewrite !zsum_cons. rewrite (H x) by (left; reflexivity). rewrite IH by (intros y Hy; apply H; right; exact Hy). reflexivity.
Qed.
Lemma zprod_cg n {A} (f g : A -> Z) l : (forall x, In x l -> cg n (f x) (g x)) -> cg n (zprod (map f l)) (zprod (map g l)).
Proof.
  induction l as [|x l IH]; intros H; [reflexivity|]. cbn [map]. rewrite !zprod_cons. rewrite (H x) by (left; reflexivity). rewrite IH by (intros y Hy; apply H; right; exact Hy). reflexivity.
Qed.
Lemma zsum_map_nonneg {A} (f : A -> Z) l : (forall x, 0 <= f x) -> 0 <= zsum (map f l).
Proof. intros H. induction l as [|x l IH]; [cbn; lia|]. cbn [map]. rewrite zsum_cons. specialize (H x). lia. Qed.
Lemma zprod_neg1 {A} (e r : A -> Z) l : (forall x, 0 <= e x) -> zprod (map (fun x => (-1) ^ e x * r x) l) = (-1) ^ zsum (map e l) * zprod (map r l).
Proof.
  intros H. induction l as [|x l IH]; [reflexivity|]. cbn [map]. rewrite !zprod_cons, zsum_cons, IH. rewrite Z.pow_add_r by (try apply zsum_map_nonneg; auto). ring.
Qed.
Lemma zsum_map_plus {A} (f g : A -> Z) l : zsum (map (fun x => f x + g x) l) = zsum (map f l) + zsum (map g l).
Proof. induction l as [|x l IH]; [reflexivity|]. cbn [map]. rewrite !zsum_cons, IH. ring. Qed.
Lemma zsum_map_scale {A} (c : Z) (f : A -> Z) l : zsum (map (fun x => c * f x) l) = c * zsum (map f l).
Proof. induction l as [|x l IH]; [cbn; ring|]. cbn [map]. rewrite !zsum_cons, IH. ring. Qed.

Section Prime.
Variables p h : Z.
Hypothesis p_prime : prime p.
Hypothesis p_odd : p = 2 * h + 1.

Lemma p3 : 3 <= p. Proof. pose proof (prime_ge2 p p_prime). lia. Qed.
Lemma p_gcd a : ~ (p | a) -> Z.gcd a p = 1.
Proof. intros N. apply Zgcd_1_rel_prime. apply rel_prime_sym, prime_rel_prime; assumption. Qed.

(** ** Euler's criterion *)
Lemma square_1 a : cg p (a * a) 1 -> cg p a 1 \/ cg p a (-1).
Proof.
  intros C. pose proof p3. apply cg_eq in C; [|lia]. apply sqrt1_prime in C; [|exact p_prime]. destruct C as [C|C]; [left|right]; constructor; rewrite C.
  - rewrite Z.mod_small by lia. reflexivity.
  - replace (-1) with (p - 1 + (-1) * p) by ring. rewrite Z_mod_plus_full, Z.mod_small by lia. reflexivity.
Qed.

Lemma euler_criterion a : cg p (a ^ h) (legendre a p).
Proof.
  pose proof p3. unfold legendre. destruct (Z.eqb_spec (a mod p) 0) as [E|N].
  - assert (C : cg p a 0) by (constructor; rewrite E; reflexivity). rewrite C, Z.pow_0_l by lia. reflexivity.
  - assert (ND : ~ (p | a)) by (intros D; apply N, Z.mod_divide; [lia|exact D]). pose proof (p_gcd a ND) as G.
    destruct (existsb _ _) eqn:E.
    + apply existsb_exists in E as (x & _ & Ex). apply Z.eqb_eq in Ex. assert (C : cg p a (x * x)) by (constructor; symmetry; exact Ex). rewrite C. assert (Gx : Z.gcd x p = 1). { apply p_gcd. intros D. apply ND. apply cg_0. rewrite C. apply cg_0. apply Z.divide_mul_l. exact D. }
      replace (x * x) with (x ^ 2) by ring. rewrite <- Z.pow_mul_r by lia. replace (2 * h) with (p - 1) by lia. rewrite <- (totient_prime p p_prime). apply euler_totient; [lia|exact Gx].
    + assert (S : cg p (a ^ h * a ^ h) 1). { rewrite <- Z.pow_add_r by lia. replace (h + h) with (p - 1) by lia. rewrite <- (totient_prime p p_prime). apply euler_totient; [lia|exact G]. }
      apply square_1 in S as [S|S]; [|exact S]. exfalso. destruct (prim_prime p p_prime) as (g & O). destruct (unity_list p g (p - 1) p_prime O) as (_ & U).
      assert (Hin : In (a mod p) (map (fun i => g ^ i mod p) (zrange 0 (p - 1)))). { apply U. split; [apply Z.mod_pos_bound; lia|]. rewrite cg_mod. rewrite <- (totient_prime p p_prime). apply euler_totient; [lia|exact G]. }
      apply in_map_iff in Hin as (i & Ei & Hi). apply zrange_In in Hi. assert (Ca : cg p a (g ^ i)) by (constructor; symmetry; exact Ei). rewrite Ca in S. rewrite <- Z.pow_mul_r in S by lia. apply (order_divide p g (p - 1)) in S; [|exact O|nia]. destruct S as (c & Ec).
      assert (Ev : i = 2 * c) by nia. assert (F : existsb (fun x => x * x mod p =? a mod p) (zrange 0 p) = true); [|congruence]. apply existsb_exists. exists (g ^ c mod p). split; [apply zrange_In; apply Z.mod_pos_bound; lia|]. apply Z.eqb_eq.
      assert (C : cg p (g ^ c mod p * (g ^ c mod p)) a); [|destruct C as (C); exact C]. rewrite cg_mod. rewrite Ca, Ev. rewrite <- Z.pow_add_r by lia. replace (c + c) with (2 * c) by ring. reflexivity.
Qed.

Lemma legendre_mul a b : legendre (a * b) p = legendre a p * legendre b p.
Proof.
  pose proof (legendre_range a p). pose proof (legendre_range b p). apply (small_eq p); [apply p3|apply legendre_range|nia|]. rewrite <- !euler_criterion. rewrite Z.pow_mul_l. reflexivity.
Qed.
Lemma legendre_1 : legendre 1 p = 1.
Proof. pose proof p3. apply (small_eq p); [lia|apply legendre_range|lia|]. rewrite <- euler_criterion, Z.pow_1_l by lia. reflexivity. Qed.
Lemma legendre_0 a : (p | a) -> legendre a p = 0.
Proof. intros D. pose proof p3. unfold legendre. apply Z.mod_divide in D; [|lia]. rewrite D. reflexivity. Qed.

(** ** Gauss's lemma *)
Section Gauss.
Variable a : Z.
Hypothesis a_unit : ~ (p | a).
Let L := zrange 1 (h + 1).
Definition gv (j : Z) : Z := (a * j) mod p.
Definition ge (j : Z) : Z := if gv j <=? h then 0 else 1.
Definition gr (j : Z) : Z := if gv j <=? h then gv j else p - gv j.

Lemma gr_range j : In j L -> 1 <= gr j <= h.
Proof.
  intros Hj. apply zrange_In in Hj. pose proof p3. pose proof (Z.mod_pos_bound (a * j) p ltac:(lia)) as B. fold (gv j) in B. assert (gv j <> 0).
  { intros E. apply Z.mod_divide in E; [|lia]. apply prime_mult in E; [|exact p_prime]. destruct E as [E|E]; [contradiction|]. apply Z.divide_pos_le in E; lia. }
  unfold gr. destruct (Z.leb_spec (gv j) h); lia.
Qed.
Lemma gr_cg j : cg p (a * j) ((-1) ^ ge j * gr j).
Proof.
  unfold ge, gr. destruct (Z.leb_spec (gv j) h).
  - rewrite Z.pow_0_r, Z.mul_1_l. unfold gv. rewrite cg_mod. reflexivity.
  - rewrite Z.pow_1_r. rewrite <- (cg_mod p (a * j)). fold (gv j). constructor. replace (-1 * (p - gv j)) with (gv j + (-1) * p) by ring. rewrite Z_mod_plus_full. reflexivity.
Qed.
Lemma gr_inj i j : In i L -> In j L -> gr i = gr j -> i = j.
Proof.
  intros Hi Hj E. pose proof (gr_cg i) as Ci. pose proof (gr_cg j) as Cj. rewrite E in Ci. apply zrange_In in Hi, Hj. pose proof (p_gcd a a_unit) as G.
  assert (S : forall j, (-1) ^ ge j = 1 \/ (-1) ^ ge j = -1) by (intros k; unfold ge; destruct (_ <=? _); auto).
  assert (K : cg p (a * i) (a * j) \/ cg p (a * i) (a * - j)).
  { replace (a * - j) with (- (a * j)) by ring. destruct (S i) as [-> | ->] in Ci; destruct (S j) as [-> | ->] in Cj; rewrite Ci, Cj; [left; reflexivity|right|right|left; reflexivity]; (constructor; f_equal; ring). }
  destruct K as [K|K]; apply (cg_cancel p a _ _ G) in K; apply cg_div in K.
  - destruct K as (c & Ec). assert (c = 0) by nia. subst. lia.
  - apply Z.divide_pos_le in K; lia.
Qed.
Lemma gr_perm : Permutation (map gr L) L.
Proof.
  apply NoDup_Permutation_bis.
  - apply NoDup_map_inj; [apply zrange_NoDup|]. exact gr_inj.
  - rewrite map_length. apply le_n.
  - intros x Hx. apply in_map_iff in Hx as (j & <- & Hj). apply zrange_In. pose proof (gr_range j Hj). lia.
Qed.
Definition gmu : Z := zsum (map ge L).
Lemma gmu_nonneg : 0 <= gmu.
Proof. apply zsum_map_nonneg. intros j. unfold ge. destruct (_ <=? _); lia. Qed.

Lemma gauss_lemma : legendre a p = (-1) ^ gmu.
Proof.
  pose proof p3. pose proof gmu_nonneg as M. apply (small_eq p); [lia|apply legendre_range|rewrite neg1_cases by exact M; destruct (Z.odd _); lia|]. rewrite <- euler_criterion.
  assert (E1 : zprod (map (fun j => a * j) L) = a ^ h * zprod L). { rewrite zprod_map_mul. unfold L at 1. rewrite zrange_length. f_equal. f_equal. lia. }
  assert (E2 : cg p (zprod (map (fun j => a * j) L)) ((-1) ^ gmu * zprod L)).
  { rewrite (zprod_cg p _ (fun j => (-1) ^ ge j * gr j)) by (intros j _; apply gr_cg). rewrite zprod_neg1 by (intros j; unfold ge; destruct (_ <=? _); lia). rewrite (zprod_perm _ _ gr_perm). reflexivity. }
  rewrite E1 in E2. apply (cg_cancel p (zprod L)); [apply zprod_coprime; intros x Hx; apply zrange_In in Hx; apply p_gcd; intros D; apply Z.divide_pos_le in D; lia|].
  rewrite (Z.mul_comm (zprod L)), E2. rewrite Z.mul_comm. reflexivity.
Qed.

(** The parity of the number of negative residues. *)
Lemma gmu_parity : cg 2 gmu ((a - 1) * zsum L + zsum (map (fun j => a * j / p) L)).
Proof.
  pose proof p3. assert (P2 : cg 2 p 1) by (constructor; rewrite p_odd, Z.add_comm, Z.mul_comm; apply Z_mod_plus_full).
  assert (E : cg 2 (zsum (map (fun j => a * j) L)) (zsum (map (fun j => a * j / p + (gr j + ge j)) L))).
  { apply zsum_cg. intros j _. rewrite (Z.div_mod (a * j) p) at 1 by lia. fold (gv j). assert (C : cg 2 (gv j) (gr j + ge j)); [|rewrite C; generalize (a * j / p); intros d; rewrite P2, Z.mul_1_l; reflexivity].
    unfold gr, ge. generalize (gv j). intros d. destruct (_ <=? _); [rewrite Z.add_0_r; reflexivity|]. rewrite P2. apply cg_div. exists (d - 1). ring. }
  rewrite !zsum_map_plus, zsum_map_scale, map_id in E. rewrite (zsum_perm _ _ gr_perm) in E. fold gmu in E. set (F := zsum (map (fun j => a * j / p) L)) in *. set (S := zsum L) in *.
  replace ((a - 1) * S + F) with (a * S - S + F) by ring. rewrite E. apply cg_div. exists (- F). ring.
Qed.
End Gauss.

Lemma sum_L : zsum (zrange 1 (h + 1)) * 2 = h * (h + 1).
Proof.
  pose proof p3. assert (G : forall n : nat, zsum (zrange 1 (Z.of_nat n + 1)) * 2 = Z.of_nat n * (Z.of_nat n + 1)).
  { induction n as [|n IH]; [reflexivity|]. rewrite Nat2Z.inj_succ. unfold Z.succ. rewrite zrange_snoc by lia. rewrite zsum_app, zsum_cons, zsum_nil. lia. }
  specialize (G (Z.to_nat h)). rewrite Z2Nat.id in G by lia. exact G.
Qed.

Definition chi8 (m : Z) : Z := if (m mod 8 =? 3) || (m mod 8 =? 5) then -1 else 1.

Lemma legendre_2 : legendre 2 p = chi8 p.
Proof.
  pose proof p3. rewrite gauss_lemma by (intros D; apply Z.divide_pos_le in D; lia). set (S := zsum (zrange 1 (h + 1))). pose proof sum_L as SL. fold S in SL. assert (S0 : 0 <= S) by nia.
  rewrite (neg1_parity (gmu 2) S); [|apply gmu_nonneg|exact S0|].
  - rewrite neg1_cases by exact S0. unfold chi8. pose proof (Z.div_mod p 8 ltac:(lia)) as D. pose proof (Z.mod_pos_bound p 8 ltac:(lia)) as B. set (k := p / 8) in *. set (r := p mod 8) in *.
    assert (R : r = 1 \/ r = 3 \/ r = 5 \/ r = 7) by lia. destruct R as [R|[R|[R|R]]]; rewrite R in *; cbn [Z.eqb Pos.eqb orb].
    + assert (h = 4 * k) by lia. assert (ES : S = 2 * (k * (4 * k + 1))) by nia. rewrite ES, Z.odd_mul. reflexivity.
    + assert (h = 4 * k + 1) by lia. assert (ES : S = 1 + 2 * (4 * k * k + 3 * k)) by nia. rewrite ES, Z.odd_add_mul_2. reflexivity.
    + assert (h = 4 * k + 2) by lia. assert (ES : S = 1 + 2 * (4 * k * k + 5 * k + 1)) by nia. rewrite ES, Z.odd_add_mul_2. reflexivity.
    + assert (h = 4 * k + 3) by lia. assert (ES : S = 2 * ((4 * k + 3) * (k + 1))) by nia. rewrite ES, Z.odd_mul. reflexivity.
  - rewrite gmu_parity by (intros D; apply Z.divide_pos_le in D; lia). fold S. rewrite (map_ext_in (fun j => 2 * j / p) (fun _ => 0)).
    + assert (Z0 : forall l : list Z, zsum (map (fun _ => 0) l) = 0) by (induction l as [|x l IH]; [reflexivity|]; cbn [map]; rewrite zsum_cons; lia). rewrite Z0. replace ((2 - 1) * S + 0) with S by ring. reflexivity.
    + intros j Hj. apply zrange_In in Hj. apply Z.div_small. lia.
Qed.

Lemma legendre_floor q : ~ (p | q) -> Z.odd q = true -> 0 <= q -> legendre q p = (-1) ^ Sum 1 (h + 1) (fun j => q * j / p).
Proof.
  intros N O Q0. pose proof p3. rewrite (gauss_lemma q N). apply neg1_parity; [apply gmu_nonneg| |].
  - unfold Sum. assert (G : forall l, (forall x, In x l -> 0 <= x) -> 0 <= zsum (map (fun j => q * j / p) l)); [|apply G; intros x Hx; apply zrange_In in Hx; lia].
    induction l as [|x l IH]; intros H0; [cbn; lia|]. cbn [map]. rewrite zsum_cons. assert (0 <= q * x / p) by (apply Z.div_pos; [pose proof (H0 x (or_introl eq_refl)); nia|lia]). assert (0 <= zsum (map (fun j => q * j / p) l)) by (apply IH; intros y Hy; apply H0; right; exact Hy). lia.
  - rewrite (gmu_parity q N). fold (Sum 1 (h + 1) (fun j => q * j / p)). apply Z.odd_spec in O as (c & ->). apply cg_div. exists (c * zsum (zrange 1 (h + 1))). ring.
Qed.
End Prime.

(** ** The lattice points below the diagonal *)

Lemma Sum_const a b c : a <= b -> Sum a b (fun _ => c) = (b - a) * c.
Proof.
  revert b. apply (right_end (fun b => a <= b -> Sum a b (fun _ => c) = (b - a) * c) a).
  - intros b Hb Hab. rewrite Sum_nil by lia. replace b with a by lia. ring.
  - intros b Hb IH _. rewrite Sum_last by exact Hb. rewrite IH by exact Hb. ring.
Qed.
Lemma count_le n x : 0 <= x <= n -> Sum 1 (n + 1) (fun i => if i <=? x then 1 else 0) = x.
Proof.
  intros H. rewrite (Sum_app 1 (x + 1)) by lia. rewrite (Sum_zero (x + 1)) by (intros i Hi; destruct (Z.leb_spec i x); lia). rewrite (Sum_ext _ _ _ (fun _ => 1)) by (intros i Hi; destruct (Z.leb_spec i x); lia).
  rewrite Sum_const by lia. ring.
Qed.

Lemma lattice p h q k : prime p -> prime q -> p <> q -> p = 2 * h + 1 -> q = 2 * k + 1 ->
  Sum 1 (h + 1) (fun j => q * j / p) + Sum 1 (k + 1) (fun i => p * i / q) = h * k.
Proof.
  intros Pp Pq N Ep Eq. pose proof (prime_ge2 p Pp). pose proof (prime_ge2 q Pq).
  assert (F : forall p h q k, 3 <= p -> 0 < q -> p = 2 * h + 1 -> q = 2 * k + 1 -> forall j, 1 <= j < h + 1 -> q * j / p = Sum 1 (k + 1) (fun i => if p * i <=? q * j then 1 else 0)).
  { clear. intros p h q k Hp Hq Ep Eq j Hj. rewrite (Sum_ext _ _ _ (fun i => if i <=? q * j / p then 1 else 0)).
    - symmetry. apply count_le. split; [apply Z.div_pos; nia|]. apply Z.lt_succ_r. apply Z.div_lt_upper_bound; [lia|]. nia.
    - intros i Hi. destruct (Z.leb_spec (p * i) (q * j)) as [L|L]; destruct (Z.leb_spec i (q * j / p)) as [M|M]; try reflexivity; exfalso.
      + apply Z.div_le_lower_bound in L; lia.
      + pose proof (Z.mul_div_le (q * j) p ltac:(lia)). nia. }
  rewrite (Sum_ext 1 (h + 1) _ _ (F p h q k ltac:(lia) ltac:(lia) Ep Eq)). rewrite (Sum_ext 1 (k + 1) _ _ (F q k p h ltac:(lia) ltac:(lia) Eq Ep)). rewrite (Sum_swap 1 (k + 1)). rewrite <- Sum_plus.
  rewrite (Sum_ext _ _ _ (fun _ => k)); [rewrite Sum_const by lia; ring|]. intros j Hj. rewrite <- Sum_plus. rewrite (Sum_ext _ _ _ (fun _ => 1)); [rewrite Sum_const by lia; ring|]. intros i Hi.
  assert (p * i <> q * j). { intros E. assert (D : (p | q * j)) by (exists i; lia). apply prime_mult in D; [|exact Pp]. destruct D as [D|D]; [apply prime_div_prime in D; [contradiction|exact Pp|exact Pq]|]. apply Z.divide_pos_le in D; lia. }
  destruct (Z.leb_spec (p * i) (q * j)), (Z.leb_spec (q * j) (p * i)); lia.
Qed.

(** ** Reciprocity *)
Definition sgn4 (m n : Z) : Z := if (m mod 4 =? 3) && (n mod 4 =? 3) then -1 else 1.

Lemma odd_prime p : prime p -> Z.odd p = true -> p = 2 * (p / 2) + 1.
Proof. intros _ O. apply Z.odd_spec in O as (c & ->). rewrite (Z.mul_comm 2 c), Z.div_add_l by lia. change (1 / 2) with 0. lia. Qed.

Lemma reciprocity p q : prime p -> prime q -> Z.odd p = true -> Z.odd q = true -> legendre q p = sgn4 q p * legendre p q.
Proof.
  intros Pp Pq Op Oq. pose proof (odd_prime p Pp Op) as Ep. pose proof (odd_prime q Pq Oq) as Eq. set (h := p / 2) in *. set (k := q / 2) in *. pose proof (p3 p h Pp Ep). pose proof (p3 q k Pq Eq). destruct (Z.eq_dec p q) as [->|N].
  - rewrite (legendre_0 q k Pq Eq) by apply Z.divide_refl. ring.
  - assert (N1 : ~ (p | q)) by (intros D; apply prime_div_prime in D; auto). assert (N2 : ~ (q | p)) by (intros D; apply prime_div_prime in D; auto; congruence).
    rewrite (legendre_floor p h Pp Ep q N1 Oq ltac:(lia)), (legendre_floor q k Pq Eq p N2 Op ltac:(lia)). pose proof (lattice p h q k Pp Pq N Ep Eq) as La.
    assert (S1 : forall p h q, 3 <= p -> 0 <= q -> 0 <= Sum 1 (h + 1) (fun j => q * j / p)).
    { clear. intros p h q Hp Hq. unfold Sum. assert (G : forall l, (forall x, In x l -> 0 <= x) -> 0 <= zsum (map (fun j => q * j / p) l)); [|apply G; intros x Hx; apply zrange_In in Hx; lia].
      induction l as [|x l IH]; intros H0; [cbn; lia|]. cbn [map]. rewrite zsum_cons. assert (0 <= q * x / p) by (apply Z.div_pos; [pose proof (H0 x (or_introl eq_refl)); nia|lia]). assert (0 <= zsum (map (fun j => q * j / p) l)) by (apply IH; intros y Hy; apply H0; right; exact Hy). lia. }
    pose proof (S1 p h q ltac:(lia) ltac:(lia)) as A0. pose proof (S1 q k p ltac:(lia) ltac:(lia)) as B0. set (A := Sum 1 (h + 1) (fun j => q * j / p)) in *. set (B := Sum 1 (k + 1) (fun i => p * i / q)) in *.
    assert (Sg : sgn4 q p = (-1) ^ (A + B)).
    { rewrite La, neg1_cases by nia. rewrite Z.odd_mul. unfold sgn4. assert (M : forall p h, p = 2 * h + 1 -> (p mod 4 =? 3) = Z.odd h).
      { clear. intros p h ->. destruct (Z.Even_or_Odd h) as [(c & ->)|(c & ->)].
        - replace (2 * (2 * c) + 1) with (1 + c * 4) by ring. rewrite Z_mod_plus_full, Z.odd_mul. reflexivity.
        - replace (2 * (2 * c + 1) + 1) with (3 + c * 4) by ring. rewrite Z_mod_plus_full, Z.odd_add, Z.odd_mul. reflexivity. }
      rewrite (M q k Eq), (M p h Ep), andb_comm. reflexivity. }
    rewrite Sg, Z.pow_add_r by assumption. rewrite <- Z.mul_assoc, <- Z.pow_add_r by assumption. replace (B + B) with (2 * B) by ring. rewrite Z.pow_mul_r by lia. change ((-1) ^ 2) with 1. rewrite Z.pow_1_l by exact B0. ring.
Qed.

(** ** Products of odd primes *)
Definition odd_primes (ps : list Z) : Prop := forall p, In p ps -> prime p /\ Z.odd p = true.
Definition jac (a : Z) (ps : list Z) : Z := zprod (map (legendre a) ps).

Lemma odd_primes_cons p ps : odd_primes (p :: ps) -> (prime p /\ Z.odd p = true) /\ odd_primes ps.
Proof. intros H. split; [apply H; left; reflexivity|]. intros q Hq. apply H. right. exact Hq. Qed.
Lemma odd_zprod ps : odd_primes ps -> 0 < zprod ps /\ Z.odd (zprod ps) = true.
Proof.
  induction ps as [|p ps IH]; intros H; [split; [cbn; lia|reflexivity]|]. apply odd_primes_cons in H as ((Hp & O) & H). destruct (IH H) as (P & O2). pose proof (prime_ge2 p Hp). rewrite zprod_cons, Z.odd_mul, O, O2. split; [nia|reflexivity].
Qed.
Lemma jac_cg a b ps : cg (zprod ps) a b -> jac a ps = jac b ps.
Proof.
  intros C. unfold jac. f_equal. apply map_ext_in. intros p Hp. apply legendre_cg. apply (cg_weaken (zprod ps)); [|exact C]. clear C. induction ps as [|q ps IH]; [destruct Hp|]. rewrite zprod_cons. destruct Hp as [->|Hp]; [apply Z.divide_factor_l|apply Z.divide_mul_r, IH, Hp].
Qed.
Lemma jac_mul a b ps : odd_primes ps -> jac (a * b) ps = jac a ps * jac b ps.
Proof.
  unfold jac. induction ps as [|p ps IH]; intros H; [reflexivity|]. apply odd_primes_cons in H as ((Hp & O) & H). cbn [map]. rewrite !zprod_cons, IH by exact H. rewrite (legendre_mul p (p / 2) Hp (odd_prime p Hp O)). ring.
Qed.
Lemma jac_1 ps : odd_primes ps -> jac 1 ps = 1.
Proof.
  unfold jac. induction ps as [|p ps IH]; intros H; [reflexivity|]. apply odd_primes_cons in H as ((Hp & O) & H). cbn [map]. rewrite zprod_cons, IH by exact H. rewrite (legendre_1 p (p / 2) Hp (odd_prime p Hp O)). ring.
Qed.

Ltac mod_cases m M := let H := fresh in pose proof (Z.mod_pos_bound m M ltac:(lia)) as H.
Lemma chi8_mul a b : Z.odd a = true -> Z.odd b = true -> chi8 (a * b) = chi8 a * chi8 b.
Proof.
  intros Oa Ob. unfold chi8. rewrite (Zmult_mod a b). pose proof (Z.mod_pos_bound a 8 ltac:(lia)) as Ba. pose proof (Z.mod_pos_bound b 8 ltac:(lia)) as Bb.
  assert (Qa : a mod 8 = 1 \/ a mod 8 = 3 \/ a mod 8 = 5 \/ a mod 8 = 7) by (apply Z.odd_spec in Oa as (c & Ec); pose proof (Z.div_mod a 8 ltac:(lia)); lia).
  assert (Qb : b mod 8 = 1 \/ b mod 8 = 3 \/ b mod 8 = 5 \/ b mod 8 = 7) by (apply Z.odd_spec in Ob as (c & Ec); pose proof (Z.div_mod b 8 ltac:(lia)); lia).
  destruct Qa as [Q|[Q|[Q|Q]]]; rewrite Q; destruct Qb as [Q'|[Q'|[Q'|Q']]]; rewrite Q'; reflexivity.
Qed.
Lemma sgn4_mul a b n : Z.odd a = true -> Z.odd b = true -> sgn4 (a * b) n = sgn4 a n * sgn4 b n.
Proof.
  intros Oa Ob. unfold sgn4. rewrite (Zmult_mod a b). pose proof (Z.mod_pos_bound a 4 ltac:(lia)) as Ba. pose proof (Z.mod_pos_bound b 4 ltac:(lia)) as Bb.
  assert (Qa : a mod 4 = 1 \/ a mod 4 = 3) by (apply Z.odd_spec in Oa as (c & Ec); pose proof (Z.div_mod a 4 ltac:(lia)); lia).
  assert (Qb : b mod 4 = 1 \/ b mod 4 = 3) by (apply Z.odd_spec in Ob as (c & Ec); pose proof (Z.div_mod b 4 ltac:(lia)); lia).
  destruct Qa as [Q|Q]; rewrite Q; destruct Qb as [Q'|Q']; rewrite Q'; cbn; destruct (n mod 4 =? 3); reflexivity.
Qed.
Lemma sgn4_comm a b : sgn4 a b = sgn4 b a.
Proof. unfold sgn4. rewrite andb_comm. reflexivity. Qed.

Lemma jac_2 ps : odd_primes ps -> jac 2 ps = chi8 (zprod ps).
Proof.
  unfold jac. induction ps as [|p ps IH]; intros H; [reflexivity|]. apply odd_primes_cons in H as ((Hp & O) & H). cbn [map]. rewrite !zprod_cons, IH by exact H. rewrite (legendre_2 p (p / 2) Hp (odd_prime p Hp O)). rewrite chi8_mul; [reflexivity|exact O|apply odd_zprod; exact H].
Qed.
Lemma jac_prime q ps : odd_primes ps -> prime q -> Z.odd q = true -> jac q ps = sgn4 (zprod ps) q * legendre (zprod ps) q.
Proof.
  intros H Hq Oq. unfold jac. induction ps as [|p ps IH].
  - change (zprod []) with 1. rewrite (legendre_1 q (q / 2) Hq (odd_prime q Hq Oq)). reflexivity.
  - apply odd_primes_cons in H as ((Hp & O) & H). cbn [map]. rewrite !zprod_cons, IH by exact H. rewrite (legendre_mul q (q / 2) Hq (odd_prime q Hq Oq)), sgn4_mul; [|exact O|apply odd_zprod; exact H]. rewrite (reciprocity p q Hp Hq O Oq), (sgn4_comm q p). ring.
Qed.
Lemma jac_reciprocity ps qs : odd_primes ps -> odd_primes qs -> jac (zprod qs) ps = sgn4 (zprod qs) (zprod ps) * jac (zprod ps) qs.
Proof.
  intros H. induction qs as [|q qs IH]; intros Hq.
  - change (zprod []) with 1. rewrite jac_1 by exact H. reflexivity.
  - apply odd_primes_cons in Hq as ((Hq1 & Oq) & Hq). rewrite zprod_cons, jac_mul, IH by assumption. rewrite (jac_prime q ps H Hq1 Oq). rewrite sgn4_mul; [|exact Oq|apply odd_zprod; exact Hq]. rewrite (sgn4_comm q). unfold jac. cbn [map]. rewrite zprod_cons. ring.
Qed.

Lemma prime_list n : 0 < n -> exists ps, (forall p, In p ps -> prime p) /\ zprod ps = n.
Proof.
  intros Hn. assert (G : forall t n, 0 < n -> (Z.to_nat n <= t)%nat -> exists ps, (forall p, In p ps -> prime p) /\ zprod ps = n).
  { induction t as [|t IH]; intros m Hm Ht; [lia|]. destruct (Z.eq_dec m 1) as [->|N1]; [exists []; split; [intros p []|reflexivity]|]. destruct (prime_divisor_exists m ltac:(lia)) as (p & Hp & (c & E)). pose proof (prime_ge2 p Hp).
    destruct (IH c ltac:(nia) ltac:(nia)) as (ps & H1 & H2). exists (p :: ps). split; [intros q [<-|Hq]; [exact Hp|apply H1, Hq]|]. rewrite zprod_cons, H2. lia. }
  apply (G (Z.to_nat n)); [exact Hn|apply le_n].
Qed.
Lemma odd_prime_list n : 0 < n -> Z.odd n = true -> exists ps, odd_primes ps /\ zprod ps = n.
Proof.
  intros Hn O. destruct (prime_list n Hn) as (ps & H1 & H2). exists ps. split; [|exact H2]. intros p Hp. split; [apply H1, Hp|]. rewrite <- H2 in O. clear - O Hp. induction ps as [|q ps IH]; [destruct Hp|]. rewrite zprod_cons, Z.odd_mul in O. apply andb_prop in O as (O1 & O2). destruct Hp as [->|Hp]; [exact O1|apply IH; assumption].
Qed.
