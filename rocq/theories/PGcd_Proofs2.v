(** * Proofs: content, primitive_part and gcd *)
From Coq Require Import ZArith List Bool Lia Znumtheory.
From Verif Require Import Base Py Sums NT Core_Model Core_Proofs Poly_Spec Poly_Model Poly_Proofs Poly_Proofs2 Poly_Proofs3 Poly_Proofs4 PGcd_Spec PGcd_Model PGcd_Proofs.
Import ListNotations.
Open Scope Z_scope.

Lemma normal_lead p : normal p -> nonzero p -> rd p (zlen p - 1) <> 0.
Proof.
  intros (N & [L|L]) (i & Ni); [|rewrite <- last_rd by exact N; exact L]. destruct p as [|a [|b p]]; cbn in L; try lia. cbn. intros ->. apply Ni. rewrite rd_cons. destruct (i =? 0); [reflexivity|apply rd_nil].
Qed.
Lemma normal_zlen p : normal p -> 1 <= zlen p.
Proof. intros (N & _). unfold zlen. destruct p; [congruence|cbn [length]; lia]. Qed.
Lemma normal_short p n : normal p -> (forall t, n <= t -> rd p t = 0) -> zlen p <= Z.max 1 n.
Proof.
  intros Np H. pose proof (normal_zlen p Np). destruct (Z.le_gt_cases (zlen p) (Z.max 1 n)) as [|L]; [assumption|exfalso]. destruct Np as (N & [E|E]); [unfold zlen in L; lia|]. apply E. rewrite last_rd by exact N. apply H. lia.
Qed.
Lemma zero_list p : normal p -> p = [0] \/ nonzero p.
Proof.
  intros N. destruct (Z.eq_dec (zg p) 0) as [E|E].
  - left. apply normal_ext; [exact N|apply normal_one|]. intros i. transitivity 0; [apply Z.divide_0_l; rewrite <- E; apply zg_divides|rewrite rd_cons; destruct (i =? 0); [reflexivity|symmetry; apply rd_nil]].
  - right. pose proof (zg_nonneg p). apply (pdivides_nonzero p p (pdivides_refl p)). destruct (list_eq_dec Z.eq_dec p [0]) as [->|D]; [cbn in E; lia|]. destruct N as (N & [L|L]).
    + destruct p as [|a [|b p]]; cbn in L; try lia. exists 0. cbn. intros ->. congruence.
    + exists (zlen p - 1). rewrite <- last_rd by exact N. exact L.
Qed.

Lemma gcd_list_ok p : p <> [] -> exists c, gcd_list p = Ret c /\ Z.abs c = zg p /\ ((2 <= length p)%nat -> 0 <= c) /\ (forall a, p = [a] -> c = a).
Proof.
  intros N. destruct p as [|a [|b p]]; [congruence| |].
  - exists a. split; [reflexivity|]. split; [cbn; rewrite Z.gcd_0_r; reflexivity|]. split; [cbn; lia|]. intros a' E. congruence.
  - exists (zg (a :: b :: p)). split; [apply gcd_list_correct|]. split; [apply Z.abs_eq, zg_nonneg|]. split; [intros _; apply zg_nonneg|]. intros a' E. congruence.
Qed.

Lemma primitive_part_ok p : normal p -> nonzero p -> exists c0 c u, gcd_list p = Ret c0 /\ (c = c0 \/ c = - c0) /\ Z.abs c0 = zg p /\ c <> 0 /\
  primitive_part p = Ret u /\ normal u /\ prim u /\ zlen u = zlen p /\ (forall i, rd p i = c * rd u i) /\ ((length u = 1)%nat \/ 0 < last u 0) /\ u = map (fun x => x / c) p.
Proof.
  intros N Z0. pose proof (zg_pos p Z0) as Zp. destruct (gcd_list_ok p (proj1 N)) as (c0 & E & A & Pos & One). exists c0. set (c := if last p 0 <? 0 then - c0 else c0).
  assert (C : c = c0 \/ c = - c0) by (unfold c; destruct (last p 0 <? 0); tauto). assert (Cn : c <> 0) by lia. destruct (decompose p c Z0 ltac:(lia)) as (R & P). set (u := map (fun x => x / c) p) in *.
  assert (Zu : zlen u = zlen p) by apply zlen_map. assert (Nn : u <> []) by (intros X; unfold u in X; apply map_eq_nil in X; apply (proj1 N X)).
  assert (Ld : c * last u 0 = last p 0) by (rewrite !last_rd by (apply N || exact Nn); rewrite Zu; symmetry; apply R).
  assert (Nu : normal u). { split; [exact Nn|]. destruct (proj2 N) as [L|L]; [left; unfold u; rewrite map_length; exact L|right; intros X; rewrite X in Ld; lia]. }
  exists c, u. split; [exact E|]. split; [exact C|]. split; [exact A|]. split; [exact Cn|]. split.
  - unfold primitive_part. rewrite E. cbn [bind]. fold c. rewrite (mapM_ret _ (fun a => a / c)) by (intros a _; unfold pydiv; destruct (Z.eqb_spec c 0); [congruence|reflexivity]). cbn [bind]. fold u. rewrite normal_polynomial by exact Nu. reflexivity.
  - split; [exact Nu|]. split; [exact P|]. split; [exact Zu|]. split; [exact R|]. split; [|reflexivity]. destruct (Nat.le_gt_cases 2 (length p)) as [L|L].
    + right. specialize (Pos L). destruct (proj2 N) as [X|X]; [lia|]. unfold c in Ld. destruct (Z.ltb_spec (last p 0) 0); nia.
    + left. unfold u. rewrite map_length. destruct p; [destruct (proj1 N eq_refl)|cbn in *; lia].
Qed.

Lemma prim_zg u : prim u -> zg u = 1.
Proof. intros P. assert (D : (zg u | 1)) by (apply P; intros i; apply zg_divides). pose proof (zg_nonneg u). apply Z.divide_1_r in D. lia. Qed.

Lemma primitive_part_again u : normal u -> prim u -> ((length u = 1)%nat \/ 0 < last u 0) -> primitive_part u = Ret u.
Proof.
  intros N P L. pose proof (prim_zg u P) as G. destruct (gcd_list_ok u (proj1 N)) as (c & E & A & Pos & One). unfold primitive_part. rewrite E. cbn [bind].
  assert (C : (if last u 0 <? 0 then - c else c) = 1).
  { destruct u as [|a [|b u]]; [destruct (proj1 N eq_refl)| |].
    - specialize (One a eq_refl). subst c. cbn [last]. destruct (Z.ltb_spec a 0); lia.
    - specialize (Pos ltac:(cbn; lia)). destruct L as [L|L]; [cbn in L; lia|]. destruct (Z.ltb_spec (last (a :: b :: u) 0) 0); lia. }
  rewrite C. rewrite (mapM_ret _ (fun a => a)) by (intros a _; unfold pydiv; cbn; rewrite Z.div_1_r; reflexivity). cbn [bind]. rewrite map_id, normal_polynomial by exact N. reflexivity.
Qed.

(** Degrees of divisors. *)
Lemma divisor_degree w r : pdivides w r -> nonzero r -> forall n, (forall t, n <= t -> rd r t = 0) -> forall t, n <= t -> rd w t = 0.
Proof.
  intros (s & S) (i0 & N0) n H t T. destruct (polynomial_ok w) as (Nw & Rw). destruct (polynomial_ok s) as (Ns & Rs). set (w' := polynomial w) in *. set (s' := polynomial s) in *.
  assert (X : forall i, rd r i = conv (rd w') (rd s') i) by (intros i; rewrite <- (coef_rd r), S; apply conv_ext; intros j _; rewrite coef_rd; symmetry; auto).
  destruct (zero_list w' Nw) as [E|Zw]; [exfalso; apply N0; rewrite X, E; apply conv_zero_l; intros j; rewrite rd_cons; destruct (j =? 0); [reflexivity|apply rd_nil]|].
  destruct (zero_list s' Ns) as [E|Zs]; [exfalso; apply N0; rewrite X, E, conv_comm; apply conv_zero_l; intros j; rewrite rd_cons; destruct (j =? 0); [reflexivity|apply rd_nil]|].
  pose proof (normal_zlen w' Nw). pose proof (normal_zlen s' Ns). pose proof (normal_lead w' Nw Zw) as A. pose proof (normal_lead s' Ns Zs) as B.
  assert (Top : rd r (zlen w' - 1 + (zlen s' - 1)) <> 0).
  { rewrite X, conv_top_coef; [|lia|lia|intros; apply rd_top; lia|intros; apply rd_top; lia|intros; apply rd_neg; lia]. intros E. apply Z.mul_eq_0 in E. tauto. }
  rewrite <- Rw. apply rd_top. destruct (Z.le_gt_cases n (zlen w' - 1 + (zlen s' - 1))) as [L|L]; [destruct Top; apply H; exact L|lia].
Qed.

Lemma coprime_pgcd u v : prim u -> (forall w, pdivides w u -> pdivides w v -> constant w) -> is_pgcd [1] u v.
Proof.
  intros P H. assert (One : forall p, pdivides [1] p). { intros p. destruct (pdivides_refl p) as (s & S). exists p. intros i. rewrite coef_rd. rewrite <- (conv_one_l (rd p) i) by (intros; apply rd_neg; assumption). apply conv_ext; [|reflexivity].
    intros j Hj. unfold unit_series, coef. destruct (Z.ltb_spec j 0); [lia|]. destruct (Z.eqb_spec j 0) as [->|N]; [reflexivity|]. destruct (Z.to_nat j) as [|[|m]] eqn:X; [lia|reflexivity|reflexivity]. }
  split; [apply One|]. split; [apply One|]. intros w Wu Wv. pose proof (H w Wu Wv) as C. assert (D : (rd w 0 | 1)).
  { apply P. intros i. destruct Wu as (s & S). rewrite <- (coef_rd u), S. rewrite (conv_ext (coef w) (fun j => rd w 0 * unit_series j) (coef s) (coef s)).
    - rewrite conv_mul_l. exists (conv unit_series (coef s) i). ring.
    - intros j Hj. unfold unit_series. destruct (Z.eqb_spec j 0) as [->|]; [rewrite coef_rd; ring|rewrite C by lia; ring].
    - reflexivity. }
  destruct D as (e & D). exists [e]. intros i. rewrite (conv_ext (coef w) (fun j => rd w 0 * unit_series j) (coef [e]) (coef [e])).
  - rewrite conv_mul_l, conv_one_l by (intros; apply rd_neg; assumption). change (rd [1] i = rd w 0 * rd [e] i). rewrite !rd_cons. destruct (i =? 0); [lia|rewrite rd_nil; lia].
  - intros j Hj. unfold unit_series. destruct (Z.eqb_spec j 0) as [->|]; [rewrite coef_rd; ring|rewrite C by lia; ring].
  - reflexivity.
Qed.

Lemma is_pgcd_sym g a b : is_pgcd g a b -> is_pgcd g b a.
Proof. intros (A & B & C). split; [exact B|]. split; [exact A|]. intros w X Y. apply C; assumption. Qed.
Lemma pgcd_self u v : pdivides v u -> is_pgcd v u v.
Proof. intros D. split; [exact D|]. split; [apply pdivides_refl|]. auto. Qed.

(** One round of pseudo-division. *)
Definition remainder (u v r : list Z) : Prop := normal r /\ (forall t, zlen v - 1 <= t -> rd r t = 0) /\
  exists c q, c <> 0 /\ forall t, c * rd u t = conv (rd q) (rd v) t + rd r t.

Lemma pqr_remainder u v : u <> [] -> normal v -> nonzero v -> zlen v <= zlen u -> exists q r, pseudo_quo_rem u v = Ret (q, r) /\ remainder u v r.
Proof.
  intros Nu Nv Zv L. destruct (pseudo_quo_rem_ok u v Nu (proj1 Nv)) as [(X & _)|(_ & q & r & E & _ & Nr & T & R)]; [lia|]. exists q, r. split; [exact E|]. split; [exact Nr|]. split; [exact T|].
  exists (rd v (zlen v - 1) ^ (zlen u - 1 - (zlen v - 1) + 1)), q. split; [|exact R]. apply Z.pow_nonzero; [apply normal_lead; assumption|lia].
Qed.
Lemma remainder_divides u v r w : remainder u v r -> pdivides w u -> pdivides w v -> pdivides w r.
Proof.
  intros (_ & _ & c & q & C & R) Wu Wv. destruct (p_mul_ok q v) as (qv & _ & _ & Q).
  apply (pdivides_sub w (map (Z.mul c) u) qv); [intros i; rewrite rd_map by ring; rewrite R, Q; ring| |apply (pdivides_mul w q v); assumption].
  apply (pdivides_scale w u _ c); [|exact Wu]. intros i. apply rd_map. ring.
Qed.
Lemma remainder_zero u v : prim v -> remainder u v [0] -> pdivides v u.
Proof.
  intros P (_ & _ & c & q & C & R). apply (prim_divides v u c (map (Z.mul c) u) P C); [intros i; apply rd_map; ring|]. exists q. intros i. rewrite coef_rd, rd_map by ring. rewrite R, conv_comm.
  rewrite rd_cons. destruct (i =? 0); [|rewrite rd_nil]; ring_simplify; reflexivity.
Qed.
Lemma remainder_multiple u v r : nonzero v -> normal v -> remainder u v r -> pdivides v u -> r = [0].
Proof.
  intros Zv Nv Rr D. destruct (zero_list r (proj1 Rr)) as [E|Zr]; [exact E|exfalso]. pose proof (remainder_divides u v r v Rr D (pdivides_refl v)) as Dr.
  apply (normal_lead v Nv Zv). apply (divisor_degree v r Dr Zr (zlen v - 1)); [apply (proj1 (proj2 Rr))|lia].
Qed.
Lemma remainder_constant u v r : remainder u v r -> nonzero r -> zlen r = 1 -> forall w, pdivides w u -> pdivides w v -> constant w.
Proof. intros Rr Zr L w Wu Wv i Hi. apply (divisor_degree w r (remainder_divides u v r w Rr Wu Wv) Zr 1); [intros t Ht; apply rd_top; lia|lia]. Qed.
