(** * Sieved tables of arithmetic functions (C24) *)
From Coq Require Import ZArith List Bool Lia Znumtheory.
From Verif Require Import Base Sums Arith_Spec Tab_Model Tab_Proofs Tab_Proofs2 Tab_Proofs3.
Import ListNotations.
Open Scope Z_scope.

(** [l] has the entries 0, ..., n; the entry 0 is 0 and the entry k is described by [P k]. *)
Definition table (n : Z) (l : list Z) (P : Z -> Z -> Prop) : Prop :=
  Z.of_nat (length l) = n + 1 /\ pyget l 0 = Ret 0 /\ forall k, 1 <= k <= n -> exists v, pyget l k = Ret v /\ P k v.

Lemma table_intro n l (P : Z -> Z -> Prop) : 1 <= n -> zlen l = n + 1 -> rd l 0 = 0 -> (forall k, 1 <= k <= n -> P k (rd l k)) -> table n l P.
Proof.
  intros Hn L Z0 H. split; [exact L|]. split; [rewrite rd_get by lia; rewrite Z0; reflexivity|]. intros k Hk. exists (rd l k). split; [apply rd_get; lia|apply H, Hk].
Qed.

Theorem C24_euler_phi_list : forall n, 1 <= n -> exists l, euler_phi_list n = Ret l /\ table n l (fun k v => v = totient k).
Proof. intros n Hn. destruct (euler_phi_list_ok n Hn) as (l & E & L & Z0 & H). exists l. split; [exact E|]. apply table_intro; assumption. Qed.

(** The bound on n is where int(n**0.5) is known to be right or one too large. *)
Theorem C24_moebius_list : forall n, 1 <= n < 2 ^ 104 -> exists l, moebius_list n = Ret l /\ table n l is_moebius.
Proof. intros n Hn. destruct (moebius_list_ok n Hn) as (l & E & L & Z0 & H). exists l. split; [exact E|]. apply table_intro; try assumption. lia. Qed.

(** Here int(n**0.5) must be exact. *)
Theorem C24_tau_list : forall n, 1 <= n < 2 ^ 52 -> exists l, tau_list n = Ret l /\ table n l (fun k v => v = tau k).
Proof.
  intros n Hn. unfold tau_list. destruct (Z.leb_spec n 0); [lia|]. destruct (pair_sweep_ok (fun _ => 1) n Hn) as (l & E & L & Z0 & R). exists l. split; [exact E|]. apply table_intro; try assumption; [lia|]. intros k Hk. rewrite tau_dsum. apply R, Hk.
Qed.

Theorem C24_sigma_list : forall n k, 1 <= n -> 1 <= k -> exists l, sigma_list n k = Ret l /\ table n l (fun m v => v = sigma k m).
Proof.
  intros n k Hn Hk. destruct (Z.eq_dec k 1) as [->|N]; [destruct (Z_le_gt_dec n (10 ^ 4)) as [L|G]|].
  - unfold sigma_list. destruct (Z.leb_spec n 0); [lia|]. change (1 =? 0) with false. change (1 <? 0) with false. change (1 =? 1) with true. destruct (Z.leb_spec n (10 ^ 4)); [|lia]. cbn [andb].
    assert (B : n < 2 ^ 52) by (apply Z.le_lt_trans with (10 ^ 4); [lia|reflexivity]). destruct (pair_sweep_ok (fun d => d) n (conj Hn B)) as (l & E & Ll & Z0 & R). exists l. split; [exact E|]. apply table_intro; try assumption. intros m Hm. rewrite sigma_dsum. apply R, Hm.
  - destruct (sigma_sieve_ok n 1 Hn Hk) as (l & E & L & Z0 & H); [lia|]. exists l. split; [exact E|]. apply table_intro; assumption.
  - destruct (sigma_sieve_ok n k Hn Hk) as (l & E & L & Z0 & H); [lia|]. exists l. split; [exact E|]. apply table_intro; assumption.
Qed.

Theorem C24_sigma_list_0 : forall n, sigma_list n 0 = tau_list n.
Proof. intros n. unfold sigma_list, tau_list. destruct (n <=? 0); reflexivity. Qed.

Theorem C24_errors : forall n, n <= 0 -> euler_phi_list n = Raise ValueError /\ moebius_list n = Raise ValueError /\ tau_list n = Raise ValueError /\ forall k, sigma_list n k = Raise ValueError.
Proof. intros n Hn. unfold euler_phi_list, moebius_list, tau_list, sigma_list. destruct (Z.leb_spec n 0); [auto|lia]. Qed.
Theorem C24_sigma_list_negative : forall n k, k < 0 -> sigma_list n k = Raise ValueError.
Proof. intros n k Hk. unfold sigma_list. destruct (n <=? 0); [reflexivity|]. destruct (Z.eqb_spec k 0); [lia|]. destruct (Z.ltb_spec k 0); [reflexivity|lia]. Qed.

(** The generator: one pair (k, mu(k)) for every k with max(1, a) <= k < b, in order. *)
Theorem C24_moebius_range : forall a b, exists l, moebius_range a (Some b) = Ret l /\ map fst l = zrange (Z.max 1 a) b /\ forall k m, In (k, m) l -> is_moebius k m.
Proof. exact moebius_range_ok. Qed.
Theorem C24_moebius_range_one : forall a, exists l, moebius_range a None = Ret l /\ map fst l = zrange 1 a /\ forall k m, In (k, m) l -> is_moebius k m.
Proof.
  intros a. rewrite moebius_range_one. destruct (moebius_range_ok 1 (if a <? 2 then 1 else a)) as (l & E & El & M). exists l. split; [exact E|]. split; [|exact M]. rewrite El. destruct (Z.ltb_spec a 2); [rewrite !zrange_nil by lia; reflexivity|reflexivity].
Qed.

Example C24_ex : euler_phi_list 12 = Ret [0; 1; 1; 2; 2; 4; 2; 6; 4; 6; 4; 10; 4] /\ moebius_list 12 = Ret [0; 1; -1; -1; 0; -1; 1; -1; 0; 0; 1; -1; 0] /\
  tau_list 12 = Ret [0; 1; 2; 2; 3; 2; 4; 2; 4; 3; 4; 2; 6] /\ sigma_list 12 1 = Ret [0; 1; 3; 4; 7; 6; 12; 8; 15; 13; 18; 12; 28] /\ sigma_list 6 2 = Ret [0; 1; 5; 10; 21; 26; 50] /\
  moebius_range 28 (Some 33) = Ret [(28, 0); (29, -1); (30, -1); (31, -1); (32, 0)].
Proof. vm_compute. repeat split; reflexivity. Qed.

Print Assumptions C24_euler_phi_list.
Print Assumptions C24_moebius_list.
Print Assumptions C24_tau_list.
Print Assumptions C24_sigma_list.
Print Assumptions C24_moebius_range.
Print Assumptions C24_moebius_range_one.
