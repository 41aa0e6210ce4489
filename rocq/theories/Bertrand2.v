(** * Bertrand's postulate: the end of the proof, and the statement about integers *)
From Coq Require Import ZArith Znumtheory Lia Arith PeanoNat.
From mathcomp Require Import all_ssreflect.
From Verif Require Import Bertrand.
Local Close Scope Z_scope.
Local Open Scope nat_scope.

Lemma pow_large L : 11 <= L -> (3 * L + 5) * (3 * L + 5) <= 2 ^ L.
Proof.
  elim: L => // L IH H. case: (ltngtP L 10) => C; [by move: (leq_trans H C)| |by rewrite C]. have I := IH C. rewrite expnS. apply: leq_trans (leq_mul (leqnn 2) I). move/leP: C => C. apply/leP. rewrite -!multE -!plusE. nia.
Qed.

Lemma bertrand_large n : 1023 < n -> exists p, prime p /\ n < p <= n.*2.
Proof.
  move=> N. case E : (has prime (iota n.+1 n)). { move/hasP: E => [p I P]. exists p. split=> //. move: I. by rewrite mem_iota addSn addnn ltnS. }
  exfalso. have H : forall p, prime p -> n < p <= n.*2 -> False. { move=> p P I. move/negbT/hasP: E => []. exists p => //. by rewrite mem_iota addSn addnn ltnS. }
  have [/leP S1 /ltP S2] := Nat.sqrt_spec n.*2 (Nat.le_0_l _). set s := Nat.sqrt n.*2 in S1 S2. rewrite multE in S1. rewrite multE in S2. have Q := prime_between N S1 S2 H.
  have D0 : 0 < n.*2 by rewrite double_gt0; apply: leq_trans N. have [A B] := andP (@trunc_log_bounds 2 n.*2 isT D0). set L := trunc_log 2 n.*2 in A B.
  set q := n.*2 %/ 3 in Q. have Q3 : q * 3 <= n.*2 := leq_trunc_div _ _.
  have K : n.*2 <= L.+1 * s.+1 + q.*2.
  { rewrite -(leq_exp2l (m := 2)) // expnD expnM. have -> : 2 ^ n.*2 = 4 ^ n by rewrite -mul2n expnM. have -> : 2 ^ q.*2 = 4 ^ q by rewrite -mul2n expnM. apply: leq_trans Q _. rewrite mulnA leq_mul2r. apply/orP. right. rewrite -expnS. by rewrite leq_exp2r // ltnW. }
  have L11 : 11 <= L. { rewrite -ltnS -(ltn_exp2l (m := 2)) //. apply: leq_ltn_trans B. rewrite -[2 ^ 11]/(1024.*2) leq_double. exact: N. }
  have PL := pow_large L L11. have X : (3 * L + 5) * (3 * L + 5) < s.+1 * s.+1 := leq_ltn_trans PL (leq_ltn_trans A S2).
  move/leP: X. move/leP: K. move/leP: Q3. move/leP: S1. rewrite -!mul2n -!multE -!plusE => S1 Q3 K X. set m := 2 * n in S1 Q3 K. clearbody m q L s. clear -S1 Q3 K X.
  assert (G1 : (s >= 3 * L + 5)%coq_nat) by nia. nia.
Qed.

Definition chain : seq nat := [:: 2; 3; 5; 7; 13; 23; 43; 83; 163; 317; 631; 1259].
Lemma chain_prime : all prime chain = true.
Proof. vm_compute. reflexivity. Qed.
Lemma chain_dense : all (fun n => has (fun p => (n < p) && (p <= n.*2)) chain) (iota 1 1023) = true.
Proof. vm_compute. reflexivity. Qed.
Lemma bertrand_nat n : 0 < n -> exists p, prime p /\ n < p <= n.*2.
Proof.
  move=> N. case: (ltnP 1023 n) => H; first exact: bertrand_large.
  have I : n \in iota 1 1023. { rewrite mem_iota. apply/andP. split; [exact: N|exact: H]. }
  have /hasP [p I' B] := allP chain_dense n I. exists p. split; [exact: (allP chain_prime p I')|exact: B].
Qed.

Lemma Zprime p : prime p -> Znumtheory.prime (Z.of_nat p).
Proof.
  move=> /primeP [P1 P2]. apply/prime_alt. move/leP: P1 => P1. split; first by lia. move=> k [K1 K2] [d E].
  have Kd : (0 < d)%Z by nia.
  have D : Z.to_nat k %| p. { apply/dvdnP. exists (Z.to_nat d). rewrite -multE. apply: Nat2Z.inj. rewrite Nat2Z.inj_mul !Z2Nat.id //; lia. }
  have := P2 _ D. case/orP => /eqP X; lia.
Qed.

(** For every n >= 1 there is a prime p with n < p <= 2n. *)
Theorem bertrand (n : Z) : (1 <= n)%Z -> exists p, Znumtheory.prime p /\ (n < p <= 2 * n)%Z.
Proof.
  move=> H. have N : 0 < Z.to_nat n by apply/ltP; lia. have [p [P /andP [A B]]] := bertrand_nat _ N. exists (Z.of_nat p). split; first exact: Zprime.
  move/ltP: A. move/leP: B. rewrite -mul2n -multE. lia.
Qed.
Print Assumptions bertrand.
