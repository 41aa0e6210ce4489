(** * C15: the Lucas-Lehmer test *)
From Coq Require Import ZArith List Bool Lia Znumtheory.
From Verif Require Import Base Primality_Model LL_Proofs.
Import ListNotations.
Open Scope Z_scope.

(** For every p >= 3 (prime or not) the answer is True exactly when 2^p - 1 is prime. *)
Theorem C15_lucas_lehmer : forall p, 3 <= p -> exists b, lucas_lehmer p = Ret b /\ (b = true <-> prime (2 ^ p - 1)).
Proof. exact ll_ok. Qed.

(** The docstring asks for an odd prime: the even prime is not handled. *)
Theorem C15_lucas_lehmer_two_refuted : lucas_lehmer 2 = Ret false /\ prime (2 ^ 2 - 1).
Proof. split; [reflexivity|exact prime_3]. Qed.

Example C15_lucas_lehmer_ex : lucas_lehmer 3 = Ret true /\ lucas_lehmer 7 = Ret true /\ lucas_lehmer 11 = Ret false /\ lucas_lehmer 127 = Ret true /\ lucas_lehmer 129 = Ret false.
Proof. vm_compute. repeat split; reflexivity. Qed.

(** So 2^127 - 1 is prime. *)
Example C15_mersenne_127 : prime (2 ^ 127 - 1).
Proof. destruct (C15_lucas_lehmer 127 ltac:(lia)) as (b & E & H). apply H. destruct C15_lucas_lehmer_ex as (_ & _ & _ & X & _). rewrite X in E. injection E as <-. reflexivity. Qed.

Print Assumptions C15_lucas_lehmer.
Print Assumptions C15_lucas_lehmer_two_refuted.
