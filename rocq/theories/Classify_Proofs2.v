(** * Square detection and factorization arguments *)
From Coq Require Import ZArith List Bool Lia Znumtheory.
From Verif Require Import Base Sums Loop NT NT_Euler Core_Model Core_Spec Core_Proofs Float2_Proofs Classify_Model Factor_Spec Factor_Proofs Div_Proofs NT_Prim Classify2_Model Classify_Proofs.
Import ListNotations.
Open Scope Z_scope.

(** ** The tables of squares *)
Lemma square_table_ok m c : 0 < m -> 0 <= c -> exists q, square_table m c = Ret q /\ Z.of_nat (length q) = m /\
  forall r, 0 <= r < m -> (nth (Z.to_nat r) q 0 = 0 <-> forall k, 0 <= k < c -> (k * k) mod m <> r).
Proof.
  intros Hm Hc. unfold square_table.
  destruct (foldM_range (fun q k => pyset q ((k * k) mod m) 1) (fun i q => Z.of_nat (length q) = m /\ forall r, 0 <= r < m -> (nth (Z.to_nat r) q 0 = 0 <-> forall k, 0 <= k < i -> (k * k) mod m <> r)) 0 c (repeat 0 (Z.to_nat m)) Hc) as (q & E & H).
  - split; [rewrite repeat_length; lia|]. intros r Hr. split; [intros _ k Hk; lia|]. intros _. apply nth_repeat.
  - intros i q Hi (L & H). assert (B := Z.mod_pos_bound (i * i) m Hm). rewrite (pyset_upd q _ 1) by lia. eexists. split; [reflexivity|]. split; [rewrite upd_length; exact L|]. intros r Hr. rewrite upd_nth by lia. destruct (Nat.eqb_spec (Z.to_nat r) (Z.to_nat ((i * i) mod m))) as [Er|Er].
    + assert (Eq : (i * i) mod m = r) by lia. split; [discriminate|]. intros H2. exfalso. apply (H2 i); [lia|exact Eq].
    + rewrite (H r Hr). split; intros H2 k Hk; [|apply H2; lia]. destruct (Z.eq_dec k i) as [->|]; [intros Eq; apply Er; rewrite Eq; reflexivity|apply H2; lia].
  - exists q. split; [exact E|]. exact H.
Qed.

Lemma half_squares m c : 0 < m -> 2 * c >= m -> forall x, exists k, 0 <= k <= c /\ (k * k) mod m = (x * x) mod m.
Proof.
  intros Hm Hc x. assert (B := Z.mod_pos_bound x m Hm). destruct (Z_le_gt_dec (x mod m) c) as [L|G].
  - exists (x mod m). split; [lia|]. symmetry. apply Z.mul_mod. lia.
  - exists (m - x mod m). split; [lia|]. rewrite (Z.mul_mod x x) by lia. set (y := x mod m) in *. replace ((m - y) * (m - y)) with (y * y + (m - 2 * y) * m) by ring. apply Z.mod_add. lia.
Qed.

Lemma squares64 x : exists k, 0 <= k < 32 /\ (k * k) mod 64 = (x * x) mod 64.
Proof.
  destruct (half_squares 64 32 ltac:(lia) ltac:(lia) x) as (k & Hk & E). destruct (Z.eq_dec k 32) as [->|]; [exists 0; split; [lia|rewrite <- E; reflexivity]|exists k; split; [lia|exact E]].
Qed.
Lemma squares45045 x : exists k, 0 <= k < 22522 /\ (k * k) mod 45045 = (x * x) mod 45045.
Proof.
  destruct (half_squares 45045 22523 ltac:(lia) ltac:(lia) x) as (k & Hk & E). destruct (Z_lt_le_dec k 22522); [exists k; split; [lia|exact E]|]. exists 787. split; [lia|]. rewrite <- E. assert (k = 22522 \/ k = 22523) as [->| ->] by lia; reflexivity.
Qed.

Lemma is_square_ok n : (exists r, 0 <= r /\ r * r = n /\ is_square n = Ret (Some r)) \/ ((forall r, r * r <> n) /\ is_square n = Ret None).
Proof.
  unfold is_square. destruct (Z.ltb_spec n 0); [right; split; [intros r; nia|reflexivity]|].
  destruct (Z.eqb_spec n 0) as [->|N0]; [left; exists 0; repeat split; lia|]. destruct (Z.eqb_spec n 1) as [->|N1]; [left; exists 1; repeat split; lia|]. cbn [orb].
  unfold IsSquare_is_square. destruct (square_table_ok 64 32 ltac:(lia) ltac:(lia)) as (q1 & E1 & L1 & H1). rewrite E1. cbn [bind]. assert (B1 := Z.mod_pos_bound n 64 ltac:(lia)). rewrite (pyget_nth q1 _ 0) by lia. cbn [bind]. destruct (Z.eqb_spec (nth (Z.to_nat (n mod 64)) q1 0) 0) as [T1|T1].
  { right. split; [|reflexivity]. intros r <-. destruct (squares64 r) as (k & Hk & Ek). apply (proj1 (H1 _ B1) T1 k); [lia|exact Ek]. }
  destruct (square_table_ok 45045 22522 ltac:(lia) ltac:(lia)) as (q2 & E2 & L2 & H2). rewrite E2. cbn [bind]. assert (B2 := Z.mod_pos_bound n 45045 ltac:(lia)). rewrite (pyget_nth q2 _ 0) by lia. cbn [bind]. destruct (Z.eqb_spec (nth (Z.to_nat (n mod 45045)) q2 0) 0) as [T2|T2].
  { right. split; [|reflexivity]. intros r <-. destruct (squares45045 r) as (k & Hk & Ek). apply (proj1 (H2 _ B2) T2 k); [lia|exact Ek]. }
  destruct (square_test n ltac:(lia)) as (q & -> & Hq & Q). cbn [bind]. destruct (Z.eqb_spec (q * q) n) as [E|E].
  - left. exists q. auto.
  - right. split; [|reflexivity]. intros r Er. apply E, Q. exists r. lia.
Qed.

(** ** Factorization arguments *)
Lemma exponents_of_power n l b k p e : factorization n l -> 1 <= k -> 1 <= b -> b ^ k = n -> In (p, e) l -> (k | e).
Proof.
  intros F Hk Hb E I. assert (Hp : prime p /\ 1 <= e) by (destruct F as (_ & F & _); apply F, I). destruct Hp as [Hp He]. assert (P2 := prime_ge2 p Hp). destruct (factorization_exponent n l p e F I) as [D1 D2].
  destruct (val_split p b ltac:(lia) ltac:(lia)) as (i & m & Hi & Hm & -> & Nd). rewrite Z.pow_mul_l, <- Z.pow_mul_r in E by lia.
  assert (G : Z.gcd p (m ^ k) = 1). { rewrite Z.gcd_comm. apply gcd_1_pow; [lia|]. rewrite Z.gcd_comm. apply Zgcd_1_rel_prime. apply prime_rel_prime; assumption. }
  assert (He2 : e = i * k).
  { destruct (Z.lt_trichotomy e (i * k)) as [L|[L|L]]; [|exact L|].
    - exfalso. apply D2. rewrite <- E. apply Z.divide_mul_l. exists (p ^ (i * k - (e + 1))). rewrite <- Z.pow_add_r by lia. f_equal. lia.
    - exfalso. assert (X : (p | m ^ k)). { rewrite <- E in D1. replace e with (i * k + 1 + (e - i * k - 1)) in D1 by lia. rewrite !Z.pow_add_r, Z.pow_1_r in D1 by lia. destruct D1 as (q & D1). exists (q * p ^ (e - i * k - 1)). assert (0 < p ^ (i * k)) by (apply Z.pow_pos_nonneg; lia). apply Z.mul_reg_l with (p ^ (i * k)); [lia|]. rewrite D1. ring. }
      assert (Y : (p | Z.gcd p (m ^ k))) by (apply Z.gcd_greatest; [apply Z.divide_refl|exact X]). rewrite G in Y. apply Z.divide_1_r_nonneg in Y; lia. }
  exists i. exact He2.
Qed.

Definition root_fac (k : Z) (l : list (Z * Z)) : Z := fac_value (map (fun pe => (fst pe, snd pe / k)) l).

Lemma root_fac_pow k l : 1 <= k -> (forall p e, In (p, e) l -> 1 <= e /\ (k | e)) -> root_fac k l ^ k = fac_value l.
Proof.
  intros Hk. induction l as [|(p, e) l IH]; intros H; [cbn; apply Z.pow_1_l; lia|]. unfold root_fac. cbn [map fst snd]. rewrite !fac_value_cons, Z.pow_mul_l. fold (root_fac k l). rewrite IH by (intros p' e' I'; apply (H p'); right; exact I'). f_equal. destruct (H p e (or_introl eq_refl)) as (He & (q & ->)). rewrite Z.div_mul by lia. rewrite <- Z.pow_mul_r by nia. reflexivity.
Qed.

Lemma root_fac_pos k l : 1 <= k -> (forall p e, In (p, e) l -> 2 <= p /\ 1 <= e) -> 1 <= root_fac k l.
Proof.
  intros Hk. induction l as [|(p, e) l IH]; intros H; [cbn; lia|]. unfold root_fac. cbn [map fst snd]. rewrite fac_value_cons. fold (root_fac k l). assert (1 <= root_fac k l) by (apply IH; intros p' e' I'; apply (H p'); right; exact I'). destruct (H p e (or_introl eq_refl)). assert (0 < p ^ (e / k)) by (apply Z.pow_pos_nonneg; [lia|apply Z.div_pos; lia]). nia.
Qed.

Lemma kth_root_loop_ok k : 1 <= k -> forall l acc, (forall p e, In (p, e) l -> 1 <= e) ->
  (kth_root_loop k l acc = Ret (Some (acc * root_fac k l, k)) /\ forall p e, In (p, e) l -> (k | e)) \/
  (kth_root_loop k l acc = Ret None /\ exists p e, In (p, e) l /\ ~ (k | e)).
Proof.
  intros Hk. induction l as [|(p, e) l IH]; intros acc H.
  - left. cbn. rewrite Z.mul_1_r. split; [reflexivity|]. intros p e [].
  - cbn [kth_root_loop]. destruct (Z.eqb_spec (e mod k) 0) as [E|E].
    + destruct (IH (acc * p ^ (e / k))) as [(E1 & E2)|(E1 & p' & e' & I & N)]; [intros p' e' I; apply (H p'); right; exact I| |].
      * left. split; [rewrite E1; unfold root_fac; cbn [map fst snd]; rewrite fac_value_cons; do 3 f_equal; ring|]. intros p' e' [[= <- <-]|I]; [apply Z.mod_divide; [lia|exact E]|apply (E2 p'), I].
      * right. split; [exact E1|]. exists p', e'. split; [right; exact I|exact N].
    + right. split; [reflexivity|]. exists p, e. split; [left; reflexivity|]. intros D. apply E. apply Z.mod_divide; [lia|exact D].
Qed.

Lemma is_square_fac_loop_eq l : forall acc, is_square_fac_loop l acc = (do o <- kth_root_loop 2 l acc; Ret (match o with Some (r, _) => Some r | None => None end)).
Proof. induction l as [|(p, e) l IH]; intros acc; [reflexivity|]. cbn [is_square_fac_loop kth_root_loop]. rewrite Zmod_odd. destruct (Z.odd e); cbn [Z.eqb]; [reflexivity|apply IH]. Qed.

Lemma fac_bounds n l : factorization n l -> forall p e, In (p, e) l -> 2 <= p /\ 1 <= e.
Proof. intros (_ & F & _) p e I. destruct (F p e I) as [Hp He]. split; [apply prime_ge2, Hp|exact He]. Qed.

Lemma is_power_fac_k_ok n l k : factorization n l -> l <> [] -> 1 <= k ->
  (exists b, is_power_fac l (Some k) = Ret (Some (b, k)) /\ 1 <= b /\ b ^ k = n) \/ (is_power_fac l (Some k) = Ret None /\ forall b, 1 <= b -> b ^ k <> n).
Proof.
  intros F Nl Hk. assert (FB := fac_bounds n l F). unfold is_power_fac. destruct (Z.ltb_spec k 1); [lia|]. destruct l as [|(p0, e0) l0] eqn:El; [congruence|]. rewrite <- El in *. assert (2 <= p0) by (apply (FB p0 e0); rewrite El; left; reflexivity). destruct (Z.eqb_spec p0 (-1)); [lia|].
  destruct (kth_root_loop_ok k Hk l 1) as [(E1 & E2)|(E1 & p & e & I & N)]; [intros p e I; apply (FB p e I)| |].
  - left. exists (root_fac k l). rewrite E1, Z.mul_1_l. split; [reflexivity|]. split; [apply root_fac_pos; [exact Hk|exact FB]|]. rewrite root_fac_pow; [apply F|exact Hk|]. intros p e I. split; [apply (FB p e I)|apply (E2 p), I].
  - right. split; [exact E1|]. intros b Hb Eb. apply N. exact (exponents_of_power n l b k p e F Hk Hb Eb I).
Qed.

Lemma is_square_fac_ok n l : factorization n l -> l <> [] ->
  (exists r, is_square_fac l = Ret (Some r) /\ 1 <= r /\ r * r = n) \/ (is_square_fac l = Ret None /\ forall r, r * r <> n).
Proof.
  intros F Nl. assert (FB := fac_bounds n l F). assert (H := is_power_fac_k_ok n l 2 F Nl ltac:(lia)). assert (Np := factorization_pos n l F). unfold is_power_fac in H. unfold is_square_fac. destruct l as [|(p0, e0) l0] eqn:El; [congruence|]. rewrite <- El in *. assert (2 <= p0) by (apply (FB p0 e0); rewrite El; left; reflexivity). cbn [Z.ltb] in H. destruct (Z.eqb_spec p0 (-1)); [lia|]. rewrite is_square_fac_loop_eq. change (2 <? 1) with false in H. cbv iota in H.
  destruct H as [(b & E & Hb & Eb)|(E & Nb)]; rewrite E; cbn [bind].
  - left. exists b. rewrite <- Z.pow_2_r. auto.
  - right. split; [reflexivity|]. intros r Er. apply (Nb (Z.abs r)); [destruct (Z.eq_dec r 0); lia|]. rewrite Z.pow_2_r. lia.
Qed.

Lemma gcd_list_ok (L : list Z) : L <> [] -> (forall x, In x L -> 1 <= x) -> exists d, gcd_list L = Ret d /\ 1 <= d /\ forall c, (c | d) <-> (forall x, In x L -> (c | x)).
Proof.
  intros NL H. destruct L as [|a [|b L]]; [congruence| |].
  - exists a. split; [reflexivity|]. split; [apply H; left; reflexivity|]. intros c. split; [intros D x [<-|[]]; exact D|intros Q; apply Q; left; reflexivity].
  - eexists. split; [apply gcd_list_correct|]. match goal with |- 1 <= ?g /\ _ => set (d := g) end.
    assert (Q : forall c, (c | d) <-> (forall x, In x (a :: b :: L) -> (c | x))). { intros c. split; [intros Hc x Hx; etransitivity; [exact Hc|]; apply fold_gcd_divide, Hx|apply fold_gcd_greatest]. }
    split; [|exact Q]. assert (D : (d | a)) by (apply (proj1 (Q d) (Z.divide_refl d)); left; reflexivity). assert (0 <= d) by apply Z.gcd_nonneg. assert (d <> 0) by (intros E; rewrite E in D; apply Z.divide_0_l in D; specialize (H a (or_introl eq_refl)); lia). lia.
Qed.

Lemma mul_ge2 n q P : 1 <= n -> 2 <= P -> n = q * P -> 2 <= n.
Proof. intros. assert (1 <= q) by nia. nia. Qed.
Lemma mul_ge2' k d : 2 <= k -> 1 <= d -> 1 <= k * d /\ 2 <= k * d.
Proof. intros. split; nia. Qed.
Lemma fac_ge2 n l : factorization n l -> l <> [] -> 2 <= n.
Proof.
  intros F Nl. destruct l as [|(p, e) l]; [congruence|]. assert (I : In (p, e) ((p, e) :: l)) by (left; reflexivity). destruct (fac_bounds _ _ F p e I) as (X1 & X2). destruct (factorization_exponent _ _ p e F I) as ((q & X3) & _).
  apply (mul_ge2 n q (p ^ e)); [apply (factorization_pos _ _ F)| |exact X3]. apply Z.le_trans with (p ^ 1); [rewrite Z.pow_1_r; exact X1|apply Z.pow_le_mono_r; lia].
Qed.

Lemma base_ge2 r d n : 1 <= r -> 1 <= d -> 2 <= n -> r ^ d = n -> 2 <= r.
Proof. intros Hr Hd Hn E. destruct (Z.eq_dec r 1) as [->|]; [|lia]. rewrite Z.pow_1_l in E by lia. lia. Qed.

Lemma is_power_fac_ok n l : factorization n l -> l <> [] ->
  (is_power_fac l None = Ret None /\ no_power n) \/
  (exists b e, is_power_fac l None = Ret (Some (b, e)) /\ 2 <= b /\ 2 <= e /\ b ^ e = n /\ no_power b).
Proof.
  intros F Nl. assert (FB := fac_bounds n l F). assert (Np := factorization_pos n l F). unfold is_power_fac. destruct l as [|(p0, e0) l0] eqn:El; [congruence|]. rewrite <- El in *. assert (2 <= p0) by (apply (FB p0 e0); rewrite El; left; reflexivity). destruct (Z.eqb_spec p0 (-1)); [lia|].
  assert (I0 : In (p0, e0) l) by (rewrite El; left; reflexivity).
  destruct (gcd_list_ok (map snd l)) as (d & -> & Hd & Q). { rewrite El; discriminate. } { intros x Hx. apply in_map_iff in Hx as ((p, e) & <- & I). apply (FB p e I). } cbn [bind].
  assert (Q' : forall c, (c | d) <-> (forall p e, In (p, e) l -> (c | e))). { intros c. rewrite Q. split; [intros H0 p e I; apply H0; apply (in_map snd) in I; exact I|intros H0 x Hx; apply in_map_iff in Hx as ((p, e) & <- & I); apply (H0 p e I)]. }
  assert (N2 : 2 <= n) by (apply (fac_ge2 n l F Nl)).
  assert (Pos : forall c k, 2 <= k -> 0 <= c -> c ^ k = n -> 1 <= c) by (intros c k Hk Hc E; assert (c <> 0) by (intros ->; rewrite Z.pow_0_l in E; lia); lia).
  destruct (Z.eqb_spec d 1) as [->|Nd].
  - left. split; [reflexivity|]. intros c k Hk Hc E. assert (D : (k | 1)) by (apply Q'; intros p e I; apply (exponents_of_power n l c k p e F); [lia|apply (Pos c k); assumption|exact E|exact I]). apply Z.divide_1_r_nonneg in D; lia.
  - right. exists (root_fac d l), d. assert (Ef : forall l acc, fold_left (fun kth_root '(p, e) => kth_root * p ^ (e / d)) l acc = acc * root_fac d l). { induction l1 as [|(p, e) l1 IH]; intros acc; [cbn; lia|]. cbn [fold_left]. rewrite IH. unfold root_fac. cbn [map fst snd]. rewrite fac_value_cons. ring. }
    rewrite Ef, Z.mul_1_l. split; [reflexivity|]. assert (R1 : 1 <= root_fac d l) by (apply root_fac_pos; [lia|exact FB]). assert (Rd : root_fac d l ^ d = n). { rewrite root_fac_pow; [apply F|lia|]. intros p e I. split; [apply (FB p e I)|]. apply (proj1 (Q' d) (Z.divide_refl d) p e I). }
    split; [apply (base_ge2 _ d n); assumption|]. split; [clear - Hd Nd; lia|]. split; [exact Rd|]. intros c k Hk Hc E. rewrite <- E in Rd. rewrite <- Z.pow_mul_r in Rd by (clear - Hk Hd; lia).
    assert (Kd : 1 <= k * d /\ 2 <= k * d) by (apply mul_ge2'; assumption).
    assert (D : (k * d | d)). { apply Q'. intros p e I. apply (exponents_of_power n l c (k * d) p e F); [exact (proj1 Kd)|apply (Pos c (k * d)); [exact (proj2 Kd)|exact Hc|exact Rd]|exact Rd|exact I]. }
    destruct D as (q & D). assert (X1 : 1 = q * k) by (apply Z.mul_reg_r with d; [lia|]; rewrite Z.mul_1_l, <- Z.mul_assoc; exact D). assert (X2 : (k | 1)) by (exists q; exact X1). apply Z.divide_1_r_nonneg in X2; clear - X2 Hk; lia.
Qed.
