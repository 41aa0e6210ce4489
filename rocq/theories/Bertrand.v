(** * Bertrand's postulate (Erdos's proof), for natural numbers *)
From mathcomp Require Import all_ssreflect.
Set Implicit Arguments.
Unset Strict Implicit.
Unset Printing Implicit Defensive.

Lemma div_double n q : 0 < q -> (n %/ q).*2 <= n.*2 %/ q <= (n %/ q).*2.+1.
Proof.
  move=> Q. rewrite leq_divRL // -[X in _ && X]ltnS ltn_divLR //. rewrite -!mul2n -mulnA leq_mul2l leq_trunc_div /=. rewrite {1}(divn_eq n q) mulnDr mulnA.
  have L := ltn_pmod n Q. rewrite -(addn2 (2 * (n %/ q))) mulnDl ltn_add2l. by rewrite ltn_mul2l.
Qed.

Section valuation.
  Variables (p : nat).
  Hypothesis (pp : prime p).
  Lemma small_pow n k : n < k -> n %/ p ^ k = 0.
  Proof using pp. move=> L. apply: divn_small. exact: ltn_trans L (ltn_expl k (prime_gt1 pp)). Qed.
  Lemma fact_wide n m : n <= m -> logn p n`! = \sum_(1 <= k < m.+1) n %/ p ^ k.
  Proof using pp.
    move=> L. have Z : \sum_(n.+1 <= k < m.+1) n %/ p ^ k = 0. { rewrite big_nat_cond big1 // => i /andP [/andP [A B] _]. by apply: small_pow. }
    by rewrite logn_fact // [RHS](big_cat_nat _ (n := n.+1)) //= Z addn0.
  Qed.
  Lemma ppow k : 0 < p ^ k.
  Proof using pp. by rewrite expn_gt0 prime_gt0. Qed.
  Lemma val_bin n : logn p 'C(n.*2, n) = \sum_(1 <= k < n.*2.+1) (n.*2 %/ p ^ k - (n %/ p ^ k).*2).
  Proof using pp.
    have D : n <= n.*2 by rewrite -addnn leq_addr.
    have E := bin_fact D. have S : n.*2 - n = n by rewrite -addnn addnK. rewrite S in E.
    have L : logn p n.*2`! = logn p 'C(n.*2, n) + (logn p n`!).*2. { rewrite -E lognM ?muln_gt0 ?fact_gt0 ?bin_gt0 //. by rewrite lognM ?fact_gt0 // addnn. }
    rewrite sumnB; last first. { move=> k _. by case/andP: (div_double n (ppow k)). }
    rewrite -(fact_wide (leqnn _)) L. rewrite (fact_wide D).
    have -> : \sum_(1 <= i < (n.*2).+1) (n %/ p ^ i).*2 = (\sum_(1 <= k < (n.*2).+1) n %/ p ^ k).*2. { rewrite -[RHS]mul2n big_distrr /=. apply: eq_bigr => i _. by rewrite mul2n. }
    by rewrite addnK.
  Qed.
  Lemma val_le n : 0 < n -> p ^ logn p 'C(n.*2, n) <= n.*2.
  Proof using pp.
    move=> N. have D : 0 < n.*2 by rewrite double_gt0. have [A B] := andP (trunc_log_bounds (prime_gt1 pp) D). set t := trunc_log p n.*2 in A B. apply: leq_trans A. rewrite leq_exp2l ?prime_gt1 // val_bin.
    have T : t <= n.*2. { apply: leq_trans (trunc_logP (prime_gt1 pp) D). exact: ltnW (ltn_expl _ (prime_gt1 pp)). }
    rewrite (big_cat_nat _ (n := t.+1)) //=. have -> : \sum_(t.+1 <= k < n.*2.+1) (n.*2 %/ p ^ k - (n %/ p ^ k).*2) = 0.
    { rewrite big_nat_cond big1 // => i /andP [/andP [X Y] _]. rewrite divn_small ?sub0n //. apply: leq_trans B _. by rewrite leq_exp2l ?(prime_gt1 pp). }
    rewrite addn0. apply: leq_trans (_ : \sum_(1 <= k < t.+1) 1 <= _); last by rewrite sum_nat_const_nat subn1 muln1.
    apply: leq_sum => i _. rewrite leq_subLR addn1. by case/andP: (div_double n (ppow i)).
  Qed.
  Lemma val_one n : n.*2 < p * p -> logn p 'C(n.*2, n) <= 1.
  Proof using pp.
    move=> L. rewrite val_bin. case: n L => [|n] L; first by rewrite big_geq.
    rewrite big_ltn //. have -> : \sum_(2 <= k < n.+1.*2.+1) (n.+1.*2 %/ p ^ k - (n.+1 %/ p ^ k).*2) = 0; last first.
    { rewrite addn0 leq_subLR addn1. by case/andP: (div_double n.+1 (ppow 1)). }
    rewrite big_nat_cond big1 // => i /andP [/andP [X Y] _]. rewrite divn_small ?sub0n //. apply: leq_trans L _. rewrite -[p * p]/(p ^ 2) leq_exp2l ?(prime_gt1 pp) //.
  Qed.
  (** The primes between 2n/3 and n do not divide the binomial coefficient. *)
  Lemma val_zero n : n.*2 < 3 * p -> 2 < p -> p <= n -> logn p 'C(n.*2, n) = 0.
  Proof using pp.
    move=> L P2 Lp. have PP : n.*2 < p * p by apply: leq_trans L _; rewrite leq_mul2r P2 orbT.
    rewrite val_bin. case: n L Lp PP => [|n] L Lp PP; first by rewrite big_geq.
    rewrite big_ltn // expn1. have -> : \sum_(2 <= k < n.+1.*2.+1) (n.+1.*2 %/ p ^ k - (n.+1 %/ p ^ k).*2) = 0; last first.
    { rewrite addn0. have -> : n.+1 %/ p = 1. { apply/eqP. rewrite eqn_leq leq_divRL ?prime_gt0 // mul1n Lp andbT -ltnS ltn_divLR ?prime_gt0 //. rewrite -ltn_double -!mul2n mulnA. apply: leq_trans (_ : 3 * p <= _); first by rewrite mul2n. by rewrite leq_mul2r orbT. }
      apply/eqP. rewrite subn_eq0 -ltnS ltn_divLR ?prime_gt0 //. }
    rewrite big_nat_cond big1 // => i /andP [/andP [X Y] _]. rewrite divn_small ?sub0n //. apply: leq_trans PP _. rewrite -[p * p]/(p ^ 2) leq_exp2l ?(prime_gt1 pp) //.
  Qed.
  Lemma val_big n : n.*2 < p -> logn p 'C(n.*2, n) = 0.
  Proof using pp.
    move=> L. apply/eqP. rewrite -leqn0 val_bin big_nat_cond big1 // => i /andP [/andP [X Y] _]. rewrite divn_small ?sub0n //. apply: leq_trans L _. rewrite -{1}[p]expn1 leq_exp2l ?(prime_gt1 pp) //.
  Qed.
End valuation.

(** The central binomial coefficient is large. *)
Lemma central_step n : n.+1 * 'C(n.+1.*2, n.+1) = 2 * (n.*2.+1 * 'C(n.*2, n)).
Proof.
  have A := mul_bin_diag n.+1.*2 n. have B := mul_bin_down n.*2.+1 n. rewrite /= in A B. rewrite -A B.
  have -> : n.*2.+1 - n = n.+1 by rewrite -addnn -addnS addKn. rewrite doubleS -[n.*2.+2]doubleS. by rewrite -mul2n mulnA.
Qed.
Lemma central_lower n : 0 < n -> 4 ^ n <= n.*2 * 'C(n.*2, n).
Proof.
  elim: n => // [[|n]] IH _; first by []. have I := IH isT. rewrite expnS. rewrite -[X in _ <= X * _]mul2n -mulnA central_step.
  apply: leq_trans (leq_mul (leqnn 4) I) _. by rewrite (mulnA 2 2) leq_mul2l /= leq_mul2r leqnSn orbT.
Qed.

(** The product of the primes up to n. *)
Definition primorial n := \prod_(0 <= p < n.+1 | prime p) p.
Lemma bin_odd_le m : 'C(m.*2.+1, m) <= 4 ^ m.
Proof.
  rewrite -(leq_pmul2l (m := 2)) //. have -> : 2 * 4 ^ m = (1 + 1) ^ (m.*2.+1) by rewrite expnS -mul2n expnM.
  rewrite expnDn. have M1 : m < m.*2.+2 by rewrite ltnS ltnW // ltnS -addnn leq_addr. have M2 : m.+1 < m.*2.+2 by rewrite !ltnS -addnn leq_addr.
  rewrite (bigD1 (Ordinal M1)) //= (bigD1 (Ordinal M2)) //=; last by rewrite -val_eqE /= gtn_eqF.
  rewrite !exp1n !muln1 addnA. apply: leq_trans (leq_addr _ _). rewrite mul2n -addnn leq_add2l. rewrite -bin_sub; last by rewrite -addnn -addnS leq_addr.
  have -> : m.*2.+1 - m = m.+1 by rewrite -addnn -addnS addKn. by [].
Qed.
Lemma bin_prod N : 0 < N -> forall M, N <= M -> N = \prod_(0 <= p < M.+1) p ^ logn p N.
Proof. move=> H M L. rewrite -{1}(partnT H) (widen_partn _ L). by []. Qed.
Lemma pow_gt0 p m : 0 < p ^ logn p m.
Proof. case: p => [|p]; [by rewrite lognE|by rewrite expn_gt0]. Qed.
Lemma primorial_step n : primorial n.+1 = primorial n * (if prime n.+1 then n.+1 else 1).
Proof. by rewrite /primorial big_mkcond big_nat_recr //= -big_mkcond. Qed.
Lemma prime_fact p k : prime p -> p %| k`! -> p <= k.
Proof.
  move=> P. elim: k => [|k IH]; first by rewrite dvdn1 => /eqP E; rewrite E in P. rewrite factS Euclid_dvdM // => /orP [D|D]; [exact: dvdn_leq|exact: leqW (IH D)].
Qed.
Lemma primorial_odd m : primorial m.*2.+1 <= primorial m.+1 * 'C(m.*2.+1, m).
Proof.
  rewrite /primorial. case: m => [|m]; first by rewrite /= !unlock /=. set k := m.+1. have K : 0 < k by []. 
  have L : k.+2 <= k.*2.+2 by rewrite -addnn !ltnS leq_addr.
  rewrite (big_cat_nat _ (n := k.+2)) //= leq_mul2l. apply/orP. right.
  have C0 : 0 < 'C(k.*2.+1, k) by rewrite bin_gt0 -addnn -addnS leq_addr.
  set N := 'C(k.*2.+1, k) in C0 *. set M := maxn N k.*2.+1. rewrite [X in _ <= X](bin_prod C0 (leq_maxl N k.*2.+1)) -/M.
  have M1 : k.*2.+2 <= M.+1 by rewrite ltnS leq_maxr.
  rewrite [X in _ <= X](big_cat_nat _ (n := k.*2.+2)) //= [X in _ <= X * _](big_cat_nat _ (n := k.+2)) //=.
  have A0 : 0 < \prod_(0 <= i < k.+2) i ^ logn i N by rewrite prodn_gt0 // => i; exact: pow_gt0.
  have B0 : 0 < \prod_(k.*2.+2 <= i < M.+1) i ^ logn i N by rewrite prodn_gt0 // => i; exact: pow_gt0.
  apply: leq_trans _ (leq_pmulr _ B0). apply: leq_trans _ (leq_pmull _ A0). rewrite big_mkcond big_nat_cond [X in _ <= X]big_nat_cond. apply: leq_prod => p /andP [/andP [H1 H2] _].
  case: ifP => [P|_]; last exact: pow_gt0. rewrite -{1}[p]expn1 leq_exp2l ?(prime_gt1 P) // logn_gt0 mem_primes P C0 /=.
  have D : k <= k.*2.+1 by rewrite -addnn -addnS leq_addr.
  have E := bin_fact D. have S : k.*2.+1 - k = k.+1 by rewrite -addnn -addnS addKn. rewrite S -/N in E.
  have F : p %| (k.*2.+1)`! by apply: dvdn_fact; rewrite prime_gt0.
  rewrite -E Euclid_dvdM // in F. case/orP: F => [//|F]. rewrite (Euclid_dvdM k`! _ P) in F. case/orP: F => F.
  - have := prime_fact P F. move=> L1. move: (leq_trans (leq_trans H1 L1) (leqnSn k)). by rewrite ltnn.
  - have := prime_fact P F. move=> L1. move: (leq_trans H1 L1). by rewrite ltnn.
Qed.
Lemma primorial_le n : primorial n <= 4 ^ n.
Proof.
  elim/ltn_ind: n => n IH. case: (ltnP n 3) => [|N]; first by case: n IH => [|[|[|n]]] _ // _; rewrite /primorial unlock.
  case: (boolP (odd n)) => O; last first.
  { have P : ~~ prime n by apply/negP => P; case: (even_prime P) => X; [rewrite X in N|rewrite X in O].
    case: n N O P IH => // n N O P IH. rewrite primorial_step (negbTE P) muln1. apply: leq_trans (IH n (ltnSn n)) _. by rewrite leq_exp2l. }
  have E := odd_double_half n. rewrite O /= add1n in E. set m := n./2 in E. rewrite -E. apply: leq_trans (primorial_odd m) _.
  have -> : 4 ^ m.*2.+1 = 4 ^ m.+1 * 4 ^ m by rewrite -expnD -addnn addSn.
  apply: leq_mul; last exact: bin_odd_le. apply: IH. rewrite -E ltnS -addnn. rewrite -E in N. case: m N {E} => // m _. by rewrite -[X in X < _]add0n ltn_add2r.
Qed.

Lemma prime_between n : 1023 < n -> forall s, s * s <= n.*2 -> n.*2 < s.+1 * s.+1 -> (forall p, prime p -> n < p <= n.*2 -> False) -> 4 ^ n <= n.*2 * (n.*2 ^ s * 4 ^ (n.*2 %/ 3)).
Proof.
  move=> N s S1 S2 H. have N0 : 0 < n by apply: leq_ltn_trans N. apply: leq_trans (central_lower N0) _. rewrite leq_mul2l. apply/orP. right.
  have C0 : 0 < 'C(n.*2, n) by rewrite bin_gt0 -addnn leq_addr. set B := 'C(n.*2, n) in C0 *. set M := maxn B n.*2.
  rewrite [X in X <= _](bin_prod C0 (leq_maxl B n.*2)) -/M. have D0 : 0 < n.*2 by rewrite double_gt0.
  (* the exponent of each prime *)
  have T : forall p, p ^ logn p B <= (if p <= s then (if p == 0 then 1 else n.*2) else 1) * (if prime p && (p <= n.*2 %/ 3) then p else 1).
  { move=> p. case P : (prime p); last first.
    { rewrite lognE P /= expn0 muln1. case: ifP => // _. case: ifP => //. }
    have P0 := prime_gt0 P. case: ifP => Ls.
    { rewrite gtn_eqF //. apply: leq_trans (val_le P N0) _. rewrite leq_pmulr //. case: ifP => //. }
    move/negbT: Ls. rewrite -ltnNge => Ls. have PP : n.*2 < p * p by apply: leq_trans S2 (leq_mul Ls Ls).
    rewrite mul1n /=. case: ifP => L3. { rewrite -[X in _ <= X]expn1 leq_exp2l ?(prime_gt1 P) //. exact: val_one. }
    move/negbT: L3. rewrite -ltnNge ltn_divLR // mulnC => L3. have Z : logn p B = 0; last by rewrite Z expn0.
    case: (leqP p n) => Ln. { apply: val_zero => //. rewrite ltnNge. apply/negP => L2. move: L3. rewrite ltnNge => /negP []. apply: leq_trans (_ : 6 <= _); first by rewrite -[6]/(3 * 2) leq_mul2l. apply: leq_trans (_ : 1024 <= _) => //. apply: leq_trans N _. by rewrite -addnn leq_addr. }
    case: (leqP p n.*2) => L2; last exact: val_big. exfalso. apply: (H p P). by rewrite Ln. }
  apply: leq_trans (_ : \prod_(0 <= p < M.+1) ((if p <= s then (if p == 0 then 1 else n.*2) else 1) * (if prime p && (p <= n.*2 %/ 3) then p else 1)) <= _); first by apply: leq_prod => p _; exact: T.
  rewrite big_split /=. apply: leq_mul.
  - have sM : s.+1 <= M.+1. { rewrite ltnS. apply: leq_trans (leq_maxr B n.*2). apply: leq_trans S1. case: (s) => // s'. by rewrite leq_pmulr. }
    rewrite (big_cat_nat _ (n := s.+1)) //= [X in _ * X <= _]big_nat_cond [X in _ * X <= _]big1 ?muln1; last by move=> i /andP [/andP [A _] _]; rewrite leqNgt A.
    rewrite big_ltn //= mul1n. apply: leq_trans (_ : \prod_(1 <= i < s.+1) n.*2 <= _); last by rewrite prod_nat_const_nat subn1.
    rewrite big_nat_cond [X in _ <= X]big_nat_cond. apply: leq_prod => i /andP [/andP [A A'] _]. by rewrite (A' : i <= s) gtn_eqF.
  - apply: leq_trans (primorial_le _). set q := n.*2 %/ 3. have qM : q.+1 <= M.+1. { rewrite ltnS. apply: leq_trans (leq_maxr B n.*2). exact: leq_div. }
    rewrite (big_cat_nat _ (n := q.+1)) //= [X in _ * X <= _]big_nat_cond [X in _ * X <= _]big1 ?muln1; last by move=> i /andP [/andP [A _] _]; rewrite [i <= q]leqNgt A andbF.
    rewrite /primorial [X in _ <= X]big_mkcond. rewrite big_nat_cond [X in _ <= X]big_nat_cond. apply: leq_prod => i /andP [/andP [A A'] _]. by rewrite (A' : i <= q) andbT.
Qed.
