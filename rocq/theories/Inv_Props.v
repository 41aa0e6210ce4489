(** * Preimages of Euler's totient: C81, C82 *)
From Coq Require Import ZArith List Bool Lia Znumtheory Sorted.
From Verif Require Import Base Py NT Factor_Model Factor_Spec Factor_Proofs Div_Proofs Factor_Props Arith_Model Arith_Spec Arith_Props Inv_Model Inv_Proofs Inv_Proofs2 Inv_Proofs3 Inv_Proofs4.
Import ListNotations.
Open Scope Z_scope.

Lemma factor_back_value l : factor_back l = fac_value l.
Proof.
  assert (X : forall l a, fold_left (fun pp '(p, e) => pp * p ^ e) l a = a * fac_value l). { clear. induction l as [|[p e] l IH]; intros a; cbn [fold_left]; [unfold fac_value; cbn; lia|]. rewrite IH, fac_value_cons. ring. }
  unfold factor_back. rewrite X. ring.
Qed.

(** [l] lists, in increasing order, exactly the positive integers of totient [n]. *)
Definition totient_preimage (n : Z) (l : list Z) : Prop :=
  StronglySorted Z.lt l /\ forall x, In x l <-> 1 <= x /\ totient x = n.

Theorem C81_euler_phi_inverse : forall fact a n, 1 <= n -> denotes fact a n ->
  exists l, euler_phi_inverse fact a = Ret l /\ totient_preimage n l.
Proof.
  intros fact a n Hn D. destruct (Z.eq_dec n 1) as [->|N1].
  - destruct D as [(-> & _)|(l & -> & Nl & F)].
    + exists [1; 2]. split; [reflexivity|]. split; [repeat constructor; lia|]. intros x. rewrite inverse_one. cbn [In]. lia.
    + exfalso. destruct l as [|[p e] l]; [congruence|]. pose proof F as F'. apply factorization_cons in F' as (Pp & He & E & _). pose proof (prime_ge_2 p Pp). assert (D : (p | 1)). { rewrite E. apply Z.divide_mul_l. replace e with (1 + (e - 1)) by lia. rewrite Z.pow_add_r, Z.pow_1_r by lia. apply Z.divide_factor_l. } apply Z.divide_1_r in D. lia.
  - destruct D as [(-> & [->|(l & E & F)])|(l & -> & Nl & F)]; [lia| |]; cbn [euler_phi_inverse].
    + destruct (Z.eqb_spec n 1); [lia|]. destruct (Z.ltb_spec 1 n); [|lia]. destruct (Z.eqb_spec (n mod 2) 1) as [Od|Od]; cbn [andb].
      * exists []. split; [reflexivity|]. split; [constructor|]. intros x. split; [intros []|]. intros (Hx & Et). assert (n <> 2) by (intros ->; discriminate). destruct (no_odd_preimage n x ltac:(lia) Od Hx Et).
      * destruct (Z.leb_spec n 0); [lia|]. rewrite E. cbn [bind]. apply fac_main; [lia|exact F].
    + destruct l as [|[p e] l]; [congruence|]. pose proof F as F'. apply factorization_cons in F' as (Pp & _). pose proof (prime_ge_2 p Pp). destruct (Z.ltb_spec 0 p); [|lia]. rewrite factor_back_value. replace (fac_value ((p, e) :: l)) with n by (symmetry; apply F). apply fac_main; [lia|exact F].
Qed.

(** Every [n] with [1 <= n <= 10^12] qualifies, whatever [factor]'s random choices are. *)
Theorem C81_euler_phi_inverse_small : forall rnd fuel n, (1 <= fuel)%nat -> 1 <= n <= 10 ^ 12 ->
  exists l, euler_phi_inverse (factor_default rnd fuel) (AInt n) = Ret l /\ totient_preimage n l.
Proof. intros rnd fuel n Hf Hn. apply C81_euler_phi_inverse; [lia|apply C23_denotes_small; assumption]. Qed.

Theorem C81_errors : forall fact n, n <= 0 -> euler_phi_inverse fact (AInt n) = Raise ValueError.
Proof.
  intros fact n Hn. cbn [euler_phi_inverse]. destruct (Z.eqb_spec n 1); [lia|]. destruct (Z.ltb_spec 1 n); [lia|]. cbn [andb]. destruct (Z.leb_spec n 0); [reflexivity|lia].
Qed.

Print Assumptions C81_euler_phi_inverse.
Print Assumptions C81_euler_phi_inverse_small.
Print Assumptions C81_errors.

Example C81_ex : euler_phi_inverse (factor_default (fun _ => (0, 0)) 1) (AInt 40) = Ret [41; 55; 75; 82; 88; 100; 110; 132; 150].
Proof. vm_compute. reflexivity. Qed.
Example C81_ex_fac : denotes (factor_default (fun _ => (0, 0)) 1) (AFac [(2, 2); (5, 2)]) 100 /\
  euler_phi_inverse (factor_default (fun _ => (0, 0)) 1) (AFac [(2, 2); (5, 2)]) = Ret [101; 125; 202; 250].
Proof.
  split; [|vm_compute; reflexivity]. right. exists [(2, 2); (5, 2)]. split; [reflexivity|]. split; [discriminate|]. split; [repeat constructor|]. split; [|reflexivity].
  intros p e [H|[H|[]]]; injection H as <- <-; split; try lia; [apply prime_2|]. apply prime_intro; [lia|]. intros m Hm. apply Zgcd_1_rel_prime. assert (C : m = 1 \/ m = 2 \/ m = 3 \/ m = 4) by lia. destruct C as [->|[->|[->| ->]]]; reflexivity.
Qed.
Example C81_ex_odd : euler_phi_inverse (factor_default (fun _ => (0, 0)) 1) (AInt 103) = Ret [].
Proof. vm_compute. reflexivity. Qed.

(** ** C82: [inverse_phi] *)
(** For [n >= 2], whenever [inverse_phi] returns, its result is the full list of
    solutions; the only other outcome is [RuntimeError]. *)
Theorem C82_inverse_phi : forall fact n l0, 2 <= n -> fact n = Ret l0 -> factorization n l0 ->
  inverse_phi fact n = Raise RuntimeError \/ exists l, inverse_phi fact n = Ret l /\ totient_preimage n l.
Proof.
  intros fact n l0 Hn E F. destruct (inverse_phi_ok fact n l0 ltac:(lia) E F) as [H|(l & H & S & I)]; [left; exact H|right]. exists l. split; [exact H|]. split; [exact S|].
  intros x. rewrite I. split; intros (Hx & Et); split; try assumption; [lia|]. assert (x <> 1) by (intros ->; change (totient 1) with 1 in Et; lia). lia.
Qed.

Theorem C82_inverse_phi_small : forall rnd fuel n, (1 <= fuel)%nat -> 2 <= n <= 10 ^ 12 ->
  inverse_phi (factor_default rnd fuel) n = Raise RuntimeError \/ exists l, inverse_phi (factor_default rnd fuel) n = Ret l /\ totient_preimage n l.
Proof.
  intros rnd fuel n Hf Hn. destruct (C23_denotes_small rnd fuel n Hf ltac:(lia)) as [(_ & [->|(l & E & F)])|(l & E & _)]; [lia| |discriminate]. exact (C82_inverse_phi _ n l ltac:(lia) E F).
Qed.

(** When it raises: some x whose totient divides [n] has a totient not met before x, that is, no prime power of the same
    totient divides x or is a power of a prime above the least prime factor of x. *)
Theorem C82_raises_iff : forall fact n l0, 1 <= n -> fact n = Ret l0 -> factorization n l0 ->
  (inverse_phi fact n = Raise RuntimeError <->
   exists x, 2 <= x /\ (totient x | n) /\
     forall r j, prime r -> 1 <= j -> totient (r ^ j) = totient x -> ~ (r ^ j | x) /\ forall q, prime q -> (q | x) -> r <= q).
Proof.
  intros fact n l0 Hn E F. rewrite (raises_iff fact n l0 Hn E F). split; intros (x & Hx & D & U); exists x; (split; [exact Hx|]); (split; [exact D|]).
  - intros r j Pr Hj Er. split; [intros X|intros q Pq Dq; destruct (Z_lt_le_dec q r) as [L|]; [exfalso|assumption]]; apply U; exists r, j; (split; [exact Pr|]); (split; [exact Hj|]); (split; [exact Er|]); [left; exact X|right; exists q; auto].
  - intros (r & j & Pr & Hj & Er & C). destruct (U r j Pr Hj Er) as (U1 & U2). destruct C as [C|(q & Pq & Dq & L)]; [contradiction|]. specialize (U2 q Pq Dq). lia.
Qed.

(** It never raises unless 4 divides [n]. *)
Theorem C82_not_four : forall fact n l0, 2 <= n -> ~ (4 | n) -> fact n = Ret l0 -> factorization n l0 ->
  exists l, inverse_phi fact n = Ret l /\ totient_preimage n l.
Proof.
  intros fact n l0 Hn N4 E F. destruct (C82_inverse_phi fact n l0 Hn E F) as [R|R]; [exfalso|exact R].
  apply (raises_iff fact n l0 ltac:(lia) E F) in R as (x & Hx & D & U). exact (U (settled_four n x N4 Hx D)).
Qed.

(** It always raises if 8 divides [n], although 2^k is the totient of 2^(k+1). *)
Theorem C82_raises_refuted : (forall fact n l0, 1 <= n -> (8 | n) -> fact n = Ret l0 -> factorization n l0 -> inverse_phi fact n = Raise RuntimeError) /\
  forall k, 3 <= k -> (8 | 2 ^ k) /\ totient (2 ^ (k + 1)) = 2 ^ k.
Proof.
  split; [intros fact n l0 Hn D E F; apply (raises_iff fact n l0 Hn E F), unsettled_eight, D|].
  intros k Hk. split; [exists (2 ^ (k - 3)); change 8 with (2 ^ 3); rewrite <- Z.pow_add_r by lia; f_equal; lia|].
  rewrite NT_Prim2.totient_pow by (apply prime_2 || lia). replace (k + 1 - 1) with k by lia. lia.
Qed.

(** And 1 is missing from the preimage of 1. *)
Theorem C82_one_refuted : forall fact l0, fact 1 = Ret l0 -> factorization 1 l0 -> forall l, inverse_phi fact 1 = Ret l -> ~ In 1 l /\ totient 1 = 1.
Proof.
  intros fact l0 E F l H. destruct (inverse_phi_ok fact 1 l0 ltac:(lia) E F) as [H'|(l' & H' & _ & I)]; [congruence|]. assert (l' = l) as -> by congruence. split; [|reflexivity]. intros X. apply I in X. lia.
Qed.

Print Assumptions C82_inverse_phi.
Print Assumptions C82_inverse_phi_small.
Print Assumptions C82_raises_iff.
Print Assumptions C82_not_four.
Print Assumptions C82_raises_refuted.
Print Assumptions C82_one_refuted.

Example C82_ex : inverse_phi (factor_default (fun _ => (0, 0)) 1) 12 = Ret [13; 21; 26; 28; 36; 42].
Proof. vm_compute. reflexivity. Qed.
Example C82_ex_one : inverse_phi (factor_default (fun _ => (0, 0)) 1) 1 = Ret [2].
Proof. vm_compute. reflexivity. Qed.
Example C82_ex_two : inverse_phi (factor_default (fun _ => (0, 0)) 1) 18 = Ret [19; 27; 38; 54] /\ ~ (4 | 18).
Proof. split; [vm_compute; reflexivity|]. intros (c & E). lia. Qed.
Example C82_ex_raises : inverse_phi (factor_default (fun _ => (0, 0)) 1) 8 = Raise RuntimeError /\ totient 15 = 8 /\ inverse_phi (factor_default (fun _ => (0, 0)) 1) 44 = Raise RuntimeError.
Proof. repeat split; vm_compute; reflexivity. Qed.
