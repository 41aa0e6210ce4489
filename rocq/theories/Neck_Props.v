(** * C80: counting necklaces *)
From Coq Require Import ZArith List Lia Bool Znumtheory Permutation FinFun.
From Verif Require Import Base Sums Count Lists2 NT_Euler Arith_Spec Factor_Spec Factor_Model Factor_Props Div_Proofs2 Arith_Model Arith_Props Summ_Proofs Neck_Spec Neck_Model Neck_Proofs.
Import ListNotations.
Open Scope Z_scope.

Lemma divisor_sum n (h : Z -> Z) l : 1 <= n -> NoDup l -> (forall d, In d l <-> 0 < d /\ (d | n)) ->
  zsum (map (fun d => totient d * h (n / d)) l) = Sum 1 (n + 1) (fun d => if n mod d =? 0 then h d * totient (n / d) else 0).
Proof.
  intros Hn N I. rewrite <- (zsum_filter (fun d => n mod d =? 0) (fun d => h d * totient (n / d))).
  rewrite (map_ext_in (fun d => totient d * h (n / d)) (fun d => (fun e => h e * totient (n / e)) (n / d))).
  - rewrite <- (map_map (fun d => n / d) (fun e => h e * totient (n / e))). apply zsum_perm, Permutation_map. apply NoDup_Permutation.
    + apply NoDup_map_inj; [exact N|]. intros x y Hx Hy E. apply I in Hx as (Px & a & Ex), Hy as (Py & b & Ey). rewrite Ex in E at 1. rewrite Ey in E. rewrite !Z.div_mul in E by lia. subst b. assert (a <> 0) by (intros ->; lia). apply Z.mul_reg_l with a; lia.
    + apply NoDup_filter, zrange_NoDup.
    + intros d. rewrite filter_In, zrange_In, Z.eqb_eq, in_map_iff. split.
      * intros (x & <- & Hx). apply I in Hx as (Px & a & Ex). assert (1 <= a) by (clear - Hn Px Ex; nia). rewrite Ex at 1 2. rewrite Z.div_mul by lia. split; [split; [lia|rewrite Ex; clear - Px H; nia]|]. rewrite Ex. rewrite Z.div_mul by lia. apply Z.mod_divide; [lia|]. exists x. ring.
      * intros (Hd & M). apply Z.mod_divide in M as (a & Ea); [|lia]. assert (1 <= a) by (clear - Hn Hd Ea; nia). exists a. split; [rewrite Ea; rewrite Z.mul_comm; apply Z.div_mul; lia|]. apply I. split; [lia|]. exists d. lia.
  - intros d Hd. apply I in Hd as (Pd & a & Ea). cbv beta. assert (1 <= a) by (clear - Hn Pd Ea; nia). rewrite Ea at 2 3 4. rewrite Ea. rewrite Z.div_mul by lia. rewrite (Z.mul_comm a d), Z.div_mul by lia. ring.
Qed.

(** [fact] gives the factorisations of the positive divisors of [n]. *)
Theorem C80_necklaces : forall fact n k, 1 <= n -> 0 <= k ->
  (forall d, 0 < d -> (d | n) -> exists l, fact d = Ret l /\ factorization d l) ->
  exists v, (forall ws, ws = None \/ ws = Some [] -> necklaces fact n k ws = Ret v) /\
  (exists L, one_of_each n k L) /\ (forall L, one_of_each n k L -> v = Z.of_nat (length L)).
Proof.
  intros fact n k Hn Hk F. destruct (choice_exists n Hn k Hk) as (L0 & O0). exists (Z.of_nat (length L0)).
  assert (B : forall L, one_of_each n k L -> Sum 0 n (fun i => k ^ Z.gcd i n) = n * Z.of_nat (length L)) by (intros L O; apply (burnside n Hn k L Hk O)).
  split; [|split; [exists L0; exact O0|]].
  - intros ws Hws. destruct (F n ltac:(lia) (Z.divide_refl n)) as (l & E & Fl).
    assert (Ab : Z.abs n = n) by lia. destruct (xdivisors_ok fact n l ltac:(rewrite Ab; exact E) ltac:(rewrite Ab; exact Fl)) as (ds & X & N & I).
    transitivity (do ds <- xdivisors fact (Some n) None; do ss <- foldM (fun ss d => do phi <- euler_phi fact (AInt d); do q <- pydiv n d; Ret (ss + phi * k ^ q)) ds 0; pydiv ss n); [destruct Hws as [-> | ->]; reflexivity|].
    rewrite X. cbn [bind].
    assert (G : forall m s, (forall d, In d m -> In d ds) -> foldM (fun ss d => do phi <- euler_phi fact (AInt d); do q <- pydiv n d; Ret (ss + phi * k ^ q)) m s = Ret (s + zsum (map (fun d => totient d * k ^ (n / d)) m))).
    { induction m as [|d m IH]; intros s Hm; [cbn; f_equal; lia|]. cbn [foldM]. destruct (proj1 (I d) (Hm d (or_introl eq_refl))) as (Pd & Dd).
      rewrite (C23_euler_phi fact (AInt d) d) by first [lia | left; split; [reflexivity|right; apply F; assumption]]. cbn [bind]. unfold pydiv at 1. destruct (Z.eqb_spec d 0) as [|_]; [lia|]. cbn [bind]. rewrite IH by (intros x Hx; apply Hm; right; exact Hx). cbn [map]. rewrite zsum_cons. f_equal. lia. }
    rewrite G by auto. cbn [bind]. rewrite (divisor_sum n (fun e => k ^ e) ds Hn N I), <- (gcd_sum n (fun e => k ^ e) Hn), (B L0 O0), Z.add_0_l. unfold pydiv. destruct (Z.eqb_spec n 0) as [|_]; [lia|]. f_equal. rewrite Z.mul_comm. apply Z.div_mul. lia.
  - intros L O. pose proof (B L O) as E1. pose proof (B L0 O0) as E2. rewrite E1 in E2. apply Z.mul_reg_l in E2; lia.
Qed.

(** With the library's own factorization this covers every [n] up to 10^12. *)
Theorem C80_necklaces_small : forall rnd fuel n k, (1 <= fuel)%nat -> 1 <= n <= 10 ^ 12 -> 0 <= k ->
  exists v, necklaces (factor_default rnd fuel) n k None = Ret v /\
  (exists L, one_of_each n k L) /\ (forall L, one_of_each n k L -> v = Z.of_nat (length L)).
Proof.
  intros rnd fuel n k Hf Hn Hk. destruct (C80_necklaces (factor_default rnd fuel) n k ltac:(lia) Hk) as (v & E & H).
  - intros d Hd D. apply small_fact; [exact Hf|]. pose proof (Z.divide_pos_le d n ltac:(lia) D). lia.
  - exists v. split; [apply E; left; reflexivity|exact H].
Qed.

(** The documented argument [weights] cannot be used: every call with colour multiplicities fails. *)
Theorem C80_weights_refuted : forall fact n k w ws, necklaces fact n k (Some (w :: ws)) = Raise TypeError.
Proof. reflexivity. Qed.

Print Assumptions C80_necklaces.
Print Assumptions C80_necklaces_small.
Print Assumptions C80_weights_refuted.

(** The documented examples. *)
Example C80_ex_3_2 : necklaces (factor_default (fun _ => (0, 0)) 1) 3 2 None = Ret 4.
Proof. vm_compute. reflexivity. Qed.
Example C80_ex_10_5 : necklaces (factor_default (fun _ => (0, 0)) 1) 10 5 None = Ret 976887.
Proof. vm_compute. reflexivity. Qed.
Example C80_ex_classes : one_of_each 3 2 [[0; 0; 0]; [0; 0; 1]; [0; 1; 1]; [1; 1; 1]].
Proof.
  assert (R : forall a b, rotation a b -> length a = 3%nat -> match a, b with [x; y; z], [x'; y'; z'] => (x' = x /\ y' = y /\ z' = z) \/ (x' = y /\ y' = z /\ z' = x) \/ (x' = z /\ y' = x /\ z' = y) | _, _ => False end).
  { intros a b (u & v & -> & ->) H. destruct u as [|x [|y [|z [|]]]]; destruct v as [|x' [|y' [|z' [|]]]]; cbn in H; try lia; cbn; intuition. }
  split; [repeat constructor; cbn; intuition discriminate|]. split; [|split].
  - cbn [In]. intros r H. decompose [or] H; try contradiction; subst; (split; [reflexivity|repeat constructor; lia]).
  - intros w (Lw & Fw). destruct w as [|a [|b [|c [|]]]]; cbn [length] in Lw; try lia. inversion_clear Fw as [|? ? Ha F1]. inversion_clear F1 as [|? ? Hb F2]. inversion_clear F2 as [|? ? Hc _].
    assert (Ca : a = 0 \/ a = 1) by lia. assert (Cb : b = 0 \/ b = 1) by lia. assert (Cc : c = 0 \/ c = 1) by lia.
    destruct Ca as [-> | ->], Cb as [-> | ->], Cc as [-> | ->];
      first [ exists [0; 0; 0]; split; [cbn; tauto|]; exists [], [0; 0; 0]; split; reflexivity | exists [1; 1; 1]; split; [cbn; tauto|]; exists [], [1; 1; 1]; split; reflexivity
            | exists [0; 0; 1]; split; [cbn; tauto|]; first [exists [], [0; 0; 1]; split; reflexivity | exists [0], [0; 1]; split; reflexivity | exists [0; 0], [1]; split; reflexivity]
            | exists [0; 1; 1]; split; [cbn; tauto|]; first [exists [], [0; 1; 1]; split; reflexivity | exists [0], [1; 1]; split; reflexivity | exists [0; 1], [1]; split; reflexivity] ].
  - cbn [In]. intros r r' H H' X. decompose [or] H; try contradiction; decompose [or] H'; try contradiction; subst; try reflexivity; exfalso; apply R in X; try reflexivity; lia.
Qed.
