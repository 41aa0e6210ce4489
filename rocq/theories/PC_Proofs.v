(** * Sieve identities *)
From Coq Require Import ZArith List Lia Bool Znumtheory Sorted.
From Verif Require Import Base Py Sums Lists Lists2 Primes_Spec NT.
Import ListNotations.
Open Scope Z_scope.

(** Indicator of the primes; sums over the primes. *)
Definition pr (m : Z) : Z := if prime_dec m then 1 else 0.
Definition PS (f : Z -> Z) (x : Z) : Z := Sum 1 (x + 1) (fun m => pr m * f m).
Definition one : Z -> Z := fun _ => 1.
Definition pi (x : Z) : Z := PS one x.

(** Sums over the numbers 1, ..., x without a divisor in l. *)
Definition free (l : list Z) (m : Z) : bool := negb (existsb (fun p => m mod p =? 0) l).
Definition cop (l : list Z) (m : Z) : Z := if free l m then 1 else 0.
Definition Phi (f : Z -> Z) (l : list Z) (x : Z) : Z := Sum 1 (x + 1) (fun m => cop l m * f m).

Lemma free_spec l m : Forall (fun p => p <> 0) l -> (free l m = true <-> forall p, In p l -> ~ (p | m)).
Proof.
  intros F. rewrite Forall_forall in F. unfold free. rewrite negb_true_iff, <- not_true_iff_false, existsb_exists. split.
  - intros H p Hp D. apply H. exists p. split; [exact Hp|]. apply Z.eqb_eq, Z.mod_divide; auto.
  - intros H (p & Hp & E). apply Z.eqb_eq, Z.mod_divide in E; [|auto]. exact (H p Hp E).
Qed.
Lemma free_app l p m : free (l ++ [p]) m = free l m && negb (m mod p =? 0).
Proof. unfold free. rewrite existsb_app, negb_orb. cbn [existsb]. rewrite orb_false_r. reflexivity. Qed.

Lemma Phi_0 f l : Phi f l 0 = 0.
Proof. unfold Phi. apply Sum_nil. lia. Qed.
Lemma Phi_neg f l x : x <= 0 -> Phi f l x = 0.
Proof. intros. unfold Phi. apply Sum_nil. lia. Qed.
Lemma Phi_nil f x : Phi f [] x = Sum 1 (x + 1) f.
Proof. unfold Phi. apply Sum_ext. intros. unfold cop, free. cbn [existsb negb]. lia. Qed.

(** The multiples of p. *)
Lemma Sum_multiples p g x : 0 < p -> 0 <= x -> Sum 1 (x + 1) (fun m => if m mod p =? 0 then g m else 0) = Sum 1 (x / p + 1) (fun k => g (p * k)).
Proof.
  intros Hp Hx. pattern x. apply natlike_ind; [|intros n Hn IH|exact Hx].
  - rewrite Z.div_0_l by lia. rewrite !Sum_nil by lia. reflexivity.
  - unfold Z.succ. rewrite (Sum_last 1 (n + 1)) by lia. rewrite IH. destruct (Z.eqb_spec ((n + 1) mod p) 0) as [E|E].
    + assert (En : n + 1 = p * ((n + 1) / p)) by (apply Z.div_exact; lia). set (k := (n + 1) / p) in *. assert (Hk : 1 <= k) by nia.
      assert (En2 : n / p = k - 1) by (symmetry; apply Z.div_unique with (p - 1); lia). rewrite En2. replace (k - 1 + 1) with k by lia. rewrite (Sum_last 1 k) by lia. rewrite En. reflexivity.
    + assert ((n + 1) / p = n / p) as ->; [|lia]. pose proof (Z.div_mod (n + 1) p ltac:(lia)). pose proof (Z.mod_pos_bound (n + 1) p Hp). apply Z.div_unique with ((n + 1) mod p - 1); lia.
Qed.

Definition completely (f : Z -> Z) : Prop := forall a b, f (a * b) = f a * f b.
Lemma one_completely : completely one. Proof. intros a b. reflexivity. Qed.
Lemma id_completely : completely (fun m => m). Proof. intros a b. reflexivity. Qed.

Lemma Phi_snoc f l p x : completely f -> Forall prime l -> prime p -> ~ In p l -> 0 <= x -> Phi f (l ++ [p]) x = Phi f l x - f p * Phi f l (x / p).
Proof.
  intros Cf Pl Pp NI Hx. pose proof (prime_ge_2 p Pp) as P2. assert (Nz : Forall (fun q => q <> 0) l) by (eapply Forall_impl; [|exact Pl]; intros q Hq; apply prime_ge_2 in Hq; lia).
  assert (E : f p * Phi f l (x / p) = Sum 1 (x + 1) (fun m => if m mod p =? 0 then cop l m * f m else 0)).
  { rewrite Sum_multiples by lia. unfold Phi. rewrite <- Sum_mul. apply Sum_ext. intros k Hk. rewrite Cf. assert (cop l (p * k) = cop l k) as ->; [|lia].
    unfold cop. assert (free l (p * k) = free l k) as ->; [|reflexivity]. apply Bool.eq_true_iff_eq. rewrite !free_spec by exact Nz. split; intros H q Hq D; apply (H q Hq).
    - apply Z.divide_mul_r, D.
    - rewrite Forall_forall in Pl. destruct (prime_mult q (Pl q Hq) _ _ D) as [D'|D']; [|exact D']. clear D. rename D' into D. exfalso. apply NI. apply prime_div_prime in D; [|apply Pl, Hq|exact Pp]. subst. exact Hq. }
  rewrite E. unfold Phi. rewrite <- Sum_minus. apply Sum_ext. intros m Hm. unfold cop. rewrite free_app. destruct (m mod p =? 0), (free l m); cbn [andb negb]; lia.
Qed.

(** The first a entries of a list of primes. *)
Definition pref (ps : list Z) (a : Z) : list Z := firstn (Z.to_nat a) ps.
Lemma pref_all ps : pref ps (zlen ps) = ps.
Proof. unfold pref, zlen. rewrite Nat2Z.id. apply firstn_all. Qed.
Lemma pref_S ps j : 0 <= j < zlen ps -> pref ps (j + 1) = pref ps j ++ [rd ps j].
Proof.
  intros H. unfold pref, rd, zlen in *. destruct (Z.ltb_spec j 0); [lia|]. replace (Z.to_nat (j + 1)) with (S (Z.to_nat j)) by lia.
  assert (L : (Z.to_nat j < length ps)%nat) by lia. clear - L. revert ps L. induction (Z.to_nat j) as [|k IH]; intros [|p ps] L; cbn [length] in L; try lia; [reflexivity|]. cbn [firstn nth app]. f_equal. apply IH. lia.
Qed.

Lemma sorted_rd ps i j : StronglySorted Z.lt ps -> 0 <= i < j -> j < zlen ps -> rd ps i < rd ps j.
Proof.
  intros S H L. unfold rd, zlen in *. destruct (Z.ltb_spec i 0); [lia|]. destruct (Z.ltb_spec j 0); [lia|]. assert (H' : (Z.to_nat i < Z.to_nat j < length ps)%nat) by lia. clear - S H'. revert H'. generalize (Z.to_nat j) (Z.to_nat i). revert S.
  induction ps as [|p ps IH]; intros S b a H; cbn [length] in H; [lia|]. inversion S as [|? ? S1 S2]; subst. destruct b as [|b]; [lia|]. destruct a as [|a]; cbn [nth].
  - rewrite Forall_forall in S2. apply S2. apply nth_In. lia.
  - apply IH; auto. lia.
Qed.
Lemma rd_In ps j : 0 <= j < zlen ps -> In (rd ps j) ps.
Proof. intros H. unfold rd, zlen in *. destruct (Z.ltb_spec j 0); [lia|]. apply nth_In. lia. Qed.
Lemma In_rd ps p : In p ps -> exists j, 0 <= j < zlen ps /\ rd ps j = p.
Proof. intros H. apply (In_nth ps p 0) in H as (k & Hk & <-). exists (Z.of_nat k). unfold rd, zlen. split; [lia|]. destruct (Z.ltb_spec (Z.of_nat k) 0); [lia|]. rewrite Nat2Z.id. reflexivity. Qed.
Lemma pref_In ps a p : 0 <= a -> In p (pref ps a) <-> exists j, 0 <= j < a /\ j < zlen ps /\ rd ps j = p.
Proof.
  intros Ha. split.
  - intros H. apply In_rd in H as (j & Hj & E). unfold pref in *. rewrite zlen_firstn in Hj by lia. exists j. rewrite rd_firstn in E by lia. destruct (Z.ltb_spec j a); [|lia]. repeat split; auto; lia.
  - intros (j & H1 & H2 & E). assert (In (rd (pref ps a) j) (pref ps a)) as I by (apply rd_In; unfold pref; rewrite zlen_firstn by lia; lia). unfold pref in I at 1. rewrite rd_firstn in I by lia. destruct (Z.ltb_spec j a); [|lia]. rewrite E in I. exact I.
Qed.

Section list.
  Context (N : Z) (ps : list Z).
  Hypothesis (HP : primes_upto N ps).

  Lemma ps_prime j : 0 <= j < zlen ps -> prime (rd ps j).
  Proof using HP. intros H. apply HP, rd_In, H. Qed.
  Lemma ps_ge2 j : 0 <= j < zlen ps -> 2 <= rd ps j.
  Proof using HP. intros H. apply prime_ge_2, ps_prime, H. Qed.
  Lemma ps_lt i j : 0 <= i < j -> j < zlen ps -> rd ps i < rd ps j.
  Proof using HP. apply sorted_rd, HP. Qed.
  Lemma ps_le i j : 0 <= i <= j -> j < zlen ps -> rd ps i <= rd ps j.
  Proof using HP. intros. destruct (Z.eq_dec i j) as [-> |]; [lia|]. pose proof (ps_lt i j). lia. Qed.
  Lemma ps_bound j : 0 <= j < zlen ps -> rd ps j <= N.
  Proof using HP. intros H. apply HP, rd_In, H. Qed.
  Lemma ps_inv i j : 0 <= i < zlen ps -> 0 <= j < zlen ps -> rd ps i < rd ps j -> i < j.
  Proof using HP. intros A B C. destruct (Z_lt_le_dec i j) as [|L]; [assumption|]. pose proof (ps_le j i). lia. Qed.
  Lemma pref_prime a : 0 <= a -> Forall prime (pref ps a).
  Proof using HP. intros Ha. apply Forall_forall. intros p Hp. apply pref_In in Hp as (j & A & B & <-); [|lia]. apply ps_prime. lia. Qed.
  Lemma pref_notin a : 0 <= a < zlen ps -> ~ In (rd ps a) (pref ps a).
  Proof using HP. intros Ha Hp. apply pref_In in Hp as (j & A & B & E); [|lia]. pose proof (ps_lt j a). lia. Qed.
  Lemma pref_below a q : 0 <= a < zlen ps -> (In q (pref ps a) <-> prime q /\ q < rd ps a).
  Proof using HP.
    intros Ha. rewrite pref_In by lia. split.
    - intros (j & A & B & <-). split; [apply ps_prime; lia|]. apply ps_lt; lia.
    - intros (Pq & L). assert (In q ps) as I by (apply HP; split; [exact Pq|]; pose proof (ps_bound a Ha); lia). apply In_rd in I as (j & Hj & <-). exists j. repeat split; try lia. apply ps_inv; auto.
  Qed.

  (** Legendre's recursion, unfolded. *)
  Lemma Phi_unfold f x k a : completely f -> 0 <= x -> 0 <= k <= a -> a <= zlen ps -> Phi f (pref ps a) x = Phi f (pref ps k) x - Sum k a (fun j => f (rd ps j) * Phi f (pref ps j) (x / rd ps j)).
  Proof using HP.
    intros Cf Hx Hk Ha. replace a with (k + (a - k)) by lia. assert (H : a - k <= zlen ps - k) by lia. revert H. assert (0 <= a - k) as Hn by lia. pattern (a - k). apply natlike_ind; [|intros n Hn' IH H|exact Hn].
    - intros _. rewrite Z.add_0_r, Sum_nil by lia. lia.
    - unfold Z.succ in *. rewrite Z.add_assoc, Sum_last by lia. rewrite pref_S by lia. rewrite Phi_snoc; auto; try (apply pref_prime; lia); try (apply ps_prime; lia); try (apply pref_notin; lia). rewrite IH by lia. lia.
  Qed.
End list.

(** What is left after sieving by the primes up to y. *)
Lemma small_factor m : 2 <= m -> ~ prime m -> exists p, prime p /\ (p | m) /\ p * p <= m.
Proof.
  intros H NP. destruct (NT.least_prime_divisor m H) as (p & Pp & (k & E) & Least). pose proof (prime_ge_2 p Pp). exists p. split; [exact Pp|]. split; [exists k; exact E|].
  assert (2 <= k). { destruct (Z.eq_dec k 1) as [-> |]; [exfalso; apply NP; rewrite E, Z.mul_1_l; exact Pp|nia]. }
  destruct (NT.prime_divisor_exists k ltac:(lia)) as (q & Pq & Dq). pose proof (Least q Pq ltac:(rewrite E; apply Z.divide_mul_l, Dq)). apply Z.divide_pos_le in Dq; [|lia]. nia.
Qed.

Lemma pr_1 : pr 1 = 0.
Proof. unfold pr. destruct (prime_dec 1) as [P|]; [apply prime_ge_2 in P; lia|reflexivity]. Qed.
Lemma Phi_rest f l y x : (forall q, In q l <-> prime q /\ q <= y) -> 1 <= y <= x -> x < (y + 1) * (y + 1) -> Phi f l x = f 1 + PS f x - PS f y.
Proof.
  intros Hl H1 H2. assert (Nz : Forall (fun q => q <> 0) l) by (apply Forall_forall; intros q Hq; apply Hl in Hq as (Pq & _); apply prime_ge_2 in Pq; lia).
  assert (E : PS f x - PS f y = Sum (y + 1) (x + 1) (fun m => pr m * f m)) by (unfold PS; rewrite (Sum_app 1 (y + 1) (x + 1)) by lia; lia).
  replace (f 1 + PS f x - PS f y) with (f 1 + (PS f x - PS f y)) by lia. rewrite E. unfold Phi. rewrite Sum_first by lia. change (1 + 1) with 2.
  assert (C1 : cop l 1 = 1). { unfold cop. assert (free l 1 = true) as ->; [|reflexivity]. apply free_spec; [exact Nz|]. intros p Hp D. apply Hl in Hp as (Pp & _). apply prime_ge_2 in Pp. apply Z.divide_1_r_nonneg in D; lia. }
  rewrite C1. rewrite (Sum_app 2 (y + 1) (x + 1)) by lia. rewrite (Sum_zero 2 (y + 1)).
  - assert (Sum (y + 1) (x + 1) (fun m => cop l m * f m) = Sum (y + 1) (x + 1) (fun m => pr m * f m)); [|lia]. apply Sum_ext. intros m Hm. assert (cop l m = pr m) as ->; [|reflexivity]. unfold cop, pr.
    destruct (prime_dec m) as [P|NP].
    + assert (free l m = true) as ->; [|reflexivity]. apply free_spec; [exact Nz|]. intros p Hp D. apply Hl in Hp as (Pp & Lp). apply prime_div_prime in D; [|exact Pp|exact P]. lia.
    + assert (free l m = false) as ->; [|reflexivity]. apply not_true_iff_false. rewrite free_spec by exact Nz. intros F. destruct (small_factor m ltac:(lia) NP) as (p & Pp & D & S). apply (F p); [|exact D]. apply Hl. split; [exact Pp|]. pose proof (prime_ge_2 p Pp). nia.
  - intros m Hm. assert (cop l m = 0) as ->; [|lia]. unfold cop. assert (free l m = false) as ->; [|reflexivity]. apply not_true_iff_false. rewrite free_spec by exact Nz. intros F. destruct (NT.prime_divisor_exists m ltac:(lia)) as (p & Pp & D). apply (F p); [|exact D].
    apply Hl. split; [exact Pp|]. apply Z.divide_pos_le in D; lia.
Qed.

(** The list and the counting function. *)
Lemma sorted_app_inv l l' : StronglySorted Z.lt (l ++ l') -> StronglySorted Z.lt l /\ StronglySorted Z.lt l' /\ forall a b, In a l -> In b l' -> a < b.
Proof.
  induction l as [|x l IH]; cbn [app]; intros H; [split; [constructor|]; split; [exact H|]; intros a b []|]. inversion H as [|? ? H1 H2]; subst. destruct (IH H1) as (A & B & C). rewrite Forall_forall in H2.
  split; [constructor; [exact A|]; apply Forall_forall; intros y Hy; apply H2, in_or_app; left; exact Hy|]. split; [exact B|]. intros a b [<-|Ha] Hb; [apply H2, in_or_app; right; exact Hb|auto].
Qed.
Lemma PS_step f x : 0 <= x -> PS f (x + 1) = PS f x + pr (x + 1) * f (x + 1).
Proof. intros H. unfold PS. rewrite (Sum_last 1 (x + 1)) by lia. reflexivity. Qed.
Lemma PS_neg f x : x <= 1 -> PS f x = 0.
Proof. intros H. destruct (Z_le_gt_dec x 0); [unfold PS; apply Sum_nil; lia|]. replace x with (0 + 1) by lia. rewrite PS_step by lia. unfold PS. rewrite Sum_nil by lia. change (0 + 1) with 1. rewrite pr_1. lia. Qed.
Lemma PS_list f n l : primes_upto n l -> zsum (map f l) = PS f n.
Proof.
  intros H. destruct (Z_le_gt_dec n 0) as [L|L].
  - destruct l as [|p l]; [rewrite PS_neg by lia; reflexivity|]. exfalso. destruct H as (_ & H). destruct (proj1 (H p) (or_introl eq_refl)) as (A & B). apply prime_ge_2 in A. lia.
  - revert l H. pattern n. apply natlike_ind; [|intros k Hk IH|lia]; intros l H.
    + destruct l as [|p l]; [rewrite PS_neg by lia; reflexivity|]. exfalso. destruct H as (_ & H). destruct (proj1 (H p) (or_introl eq_refl)) as (A & B). apply prime_ge_2 in A. lia.
    + unfold Z.succ in *. rewrite PS_step by lia. unfold pr. destruct (prime_dec (k + 1)) as [P|NP].
      * assert (exists l', l = l' ++ [k + 1] /\ primes_upto k l') as (l' & -> & H').
        { assert (I : In (k + 1) l) by (apply H; split; [exact P|lia]). apply in_split in I as (l1 & l2 & ->). destruct H as (S & H). assert (l2 = []) as ->.
          { destruct l2 as [|q l2]; [reflexivity|]. exfalso. assert (In q (l1 ++ k + 1 :: q :: l2)) as Iq by (apply in_or_app; right; right; left; reflexivity). apply H in Iq. apply sorted_app_inv in S as (_ & S & _). inversion S as [|? ? _ F]; subst. inversion F; subst. lia. }
          exists l1. split; [reflexivity|]. apply sorted_app_inv in S as (S1 & _ & S2). split; [exact S1|]. intros p. split.
          - intros Ip. split; [apply H, in_or_app; left; exact Ip|]. specialize (S2 p (k + 1) Ip (or_introl eq_refl)). lia.
          - intros (A & B). assert (In p (l1 ++ [k + 1])) as J by (apply H; split; [exact A|lia]). apply in_app_or in J as [J|[J|[]]]; [exact J|lia]. }
        rewrite map_app, zsum_app, (IH l' H'). cbn [map zsum fold_right]. lia.
      * rewrite (IH l); [lia|]. destruct H as (S & H). split; [exact S|]. intros p. rewrite H. split; intros (A & B); (split; [exact A|]); [|lia]. destruct (Z.eq_dec p (k + 1)) as [-> |]; [contradiction|lia].
Qed.
Lemma zsum_one (l : list Z) : zsum (map one l) = zlen l.
Proof. induction l as [|a l IH]; [reflexivity|]. cbn [map]. rewrite zsum_cons, IH. unfold one, zlen. cbn [length]. lia. Qed.
Lemma pi_list n l : primes_upto n l -> zlen l = pi n.
Proof. intros H. rewrite <- zsum_one. apply PS_list, H. Qed.
