(** * Legendre's formula and the sum of the primes by the same recursion *)
From Coq Require Import ZArith List Lia Bool Znumtheory Sorted.
From Verif Require Import Base Py Sums Lists Primes_Spec PrimeList_Data PrimeList_Proofs Core_Model Core_Props Sieves_Model Primes_Props PC_Model PC_Spec PC_Proofs.
Import ListNotations.
Open Scope Z_scope.

Definition good (F : Z -> Z -> Z) (c : cache) : Prop := forall x a v, cache_get c x a = Some v -> v = F x a.
Lemma good_cons F c x a : good F c -> good F ((x, a, F x a) :: c).
Proof. intros G x' a' v. cbn [cache_get]. destruct (Z.eqb_spec x x') as [<-|]; [destruct (Z.eqb_spec a a') as [<-|]|]; cbn [andb]; [congruence| |]; apply G. Qed.
Lemma good_nil F : good F []. Proof. intros x a v. discriminate. Qed.

Section loop.
  Context (N : Z) (ps : list Z) (HP : primes_upto N ps) (F : Z -> Z -> Z) (rec : Z -> Z -> cache -> outcome (Z * cache)) (w : Z -> Z) (x : Z).

  Lemma loop_ok k a : 0 <= k -> a <= zlen ps -> (forall j c, k <= j < a -> rd ps j <= x -> good F c -> exists c', rec (x / rd ps j) j c = Ret (F (x / rd ps j) j, c') /\ good F c') ->
    forall value c, good F c -> exists c', phi_loop rec w ps x (zrange k a) value c = Ret (value - Sum k a (fun j => if x <? rd ps j then 0 else w (rd ps j) * F (x / rd ps j) j), c') /\ good F c'.
  Proof using HP.
    intros Hk Ha. destruct (Z_le_gt_dec a k) as [L|L]; [intros _ value c G; rewrite zrange_nil, Sum_nil by lia; exists c; cbn [phi_loop]; split; [f_equal; f_equal; lia|exact G]|].
    remember (Z.to_nat (a - k)) as n eqn:En. assert (En' : Z.of_nat n = a - k) by lia. clear En L. revert k Hk En'. induction n as [|n IH]; intros k Hk En' R value c G.
    - rewrite zrange_nil, Sum_nil by lia. exists c. cbn [phi_loop]. split; [f_equal; f_equal; lia|exact G].
    - rewrite zrange_cons, Sum_first by lia. cbn [phi_loop]. rewrite rd_get by lia. cbn [bind]. destruct (Z.ltb_spec x (rd ps k)) as [L|L].
      + exists c. split; [|exact G]. do 2 f_equal. rewrite Sum_zero; [lia|]. intros j Hj. pose proof (ps_lt N ps HP k j). destruct (Z.ltb_spec x (rd ps j)); lia.
      + destruct (R k c ltac:(lia) L G) as (c1 & -> & G1). cbn [bind]. destruct (IH (k + 1) ltac:(lia) ltac:(lia)) with (value := value - w (rd ps k) * F (x / rd ps k) k) (c := c1) as (c2 & E & G2); [intros j c0 Hj; apply R; lia|exact G1|].
        rewrite E. exists c2. split; [do 2 f_equal; lia|exact G2].
  Qed.
End loop.

Lemma Sum_one_len x : 0 <= x -> Sum 1 (x + 1) one = x.
Proof. intros H. pattern x. apply natlike_ind; [reflexivity| |exact H]. intros n Hn IH. unfold Z.succ. rewrite (Sum_last 1 (n + 1)) by lia. rewrite IH. unfold one. lia. Qed.
Lemma Sum_id x : 0 <= x -> Sum 1 (x + 1) (fun m => m) = x * (x + 1) / 2.
Proof.
  intros H. apply Z.div_unique_exact; [lia|]. pattern x. apply natlike_ind; [reflexivity| |exact H]. intros n Hn IH. unfold Z.succ. rewrite (Sum_last 1 (n + 1)) by lia. lia.
Qed.

Lemma upto_first N ps : primes_upto N ps -> 2 <= N -> 1 <= zlen ps /\ rd ps 0 = 2.
Proof.
  intros H L. assert (I : In 2 ps) by (apply H; split; [exact prime_2|exact L]). apply In_rd in I as (j & Hj & E). split; [lia|]. destruct (Z.eq_dec j 0) as [-> |]; [exact E|]. pose proof (ps_lt N ps H 0 j ltac:(lia) ltac:(lia)). pose proof (ps_ge2 N ps H 0 ltac:(lia)). lia.
Qed.
Lemma pref_0 ps : pref ps 0 = []. Proof. reflexivity. Qed.
Lemma Phi_two N ps x : primes_upto N ps -> 2 <= N -> 0 <= x -> Phi one (pref ps 1) x = (x + 1) / 2.
Proof.
  intros H L Hx. destruct (upto_first N ps H L) as (Z1 & E). rewrite (Phi_unfold N ps H one x 0 1 one_completely Hx) by lia. rewrite Sum_one. rewrite pref_0, !Phi_nil, E. unfold one at 2.
  rewrite !Sum_one_len by (try apply Z.div_pos; lia). pose proof (Z.div_mod x 2 ltac:(lia)). pose proof (Z.mod_pos_bound x 2 ltac:(lia)). pose proof (Z.div_mod (x + 1) 2 ltac:(lia)). pose proof (Z.mod_pos_bound (x + 1) 2 ltac:(lia)). lia.
Qed.

Lemma collapse ps w x f k a : (forall j, k <= j < a -> 0 < rd ps j) -> 0 <= x -> (forall j, k <= j < a -> f j 0 = 0) ->
  Sum k a (fun j => if x <? rd ps j then 0 else w (rd ps j) * f j (x / rd ps j)) = Sum k a (fun j => w (rd ps j) * f j (x / rd ps j)).
Proof. intros H Hx H0. apply Sum_ext. intros j Hj. specialize (H j Hj). destruct (Z.ltb_spec x (rd ps j)); [|reflexivity]. rewrite Z.div_small, H0 by lia. lia. Qed.

Lemma legendre_phi_ok N ps : primes_upto N ps -> 2 <= N -> forall fuel x a c, 0 <= x -> 1 <= a <= zlen ps -> a < Z.of_nat fuel -> good (fun x a => Phi one (pref ps a) x) c ->
  exists c', legendre_phi fuel ps x a c = Ret (Phi one (pref ps a) x, c') /\ good (fun x a => Phi one (pref ps a) x) c'.
Proof.
  intros H L. induction fuel as [|fuel IH]; intros x a c Hx Ha Hf G; [lia|]. cbn [legendre_phi]. destruct (cache_get c x a) as [v|] eqn:Ec; [exists c; split; [rewrite <- (G x a v Ec); reflexivity|exact G]|].
  destruct (Z.eqb_spec a 1) as [-> |]; [exists c; split; [rewrite (Phi_two N) by assumption; reflexivity|exact G]|].
  destruct (loop_ok N ps H (fun x a => Phi one (pref ps a) x) (legendre_phi fuel ps) (fun _ => 1) x 1 a ltac:(lia) ltac:(lia)) with (value := (x + 1) / 2) (c := c) as (c1 & E & G1).
  { intros j c0 Hj Lj G0. pose proof (ps_ge2 N ps H j ltac:(lia)). apply IH; auto; try lia. apply Z.div_pos; lia. }
  { exact G. }
  rewrite E. cbn [bind]. assert (EV : (x + 1) / 2 - Sum 1 a (fun j => if x <? rd ps j then 0 else 1 * Phi one (pref ps j) (x / rd ps j)) = Phi one (pref ps a) x).
  { rewrite (collapse ps (fun _ => 1) x (fun j y => Phi one (pref ps j) y)); [|intros j Hj; pose proof (ps_ge2 N ps H j); lia|exact Hx|intros; apply Phi_0].
    rewrite (Phi_unfold N ps H one x 1 a one_completely Hx) by lia. rewrite (Phi_two N ps x H L Hx). reflexivity. }
  rewrite EV. eexists. split; [reflexivity|]. apply (good_cons (fun x a => Phi one (pref ps a) x)), G1.
Qed.

Lemma table_pi n : n <= last PRIME_LIST 0 -> prime_count_is n (Z.of_nat (bisect PRIME_LIST n)).
Proof.
  rewrite PRIME_LIST_last. intros H. exists (firstn (bisect PRIME_LIST n) PRIME_LIST). split; [|rewrite firstn_length_le by apply bisect_le; reflexivity].
  destruct (C14_primes n) as (l & E & U). unfold primes in E. rewrite PRIME_LIST_last in E. destruct (Z.ltb_spec n 999983); [injection E as <-; exact U|].
  rewrite bisect_firstn by apply PRIME_LIST_sorted. split; [apply filter_sorted, PRIME_LIST_sorted|]. intros p. rewrite filter_In, PRIME_LIST_In, Z.leb_le. split; [tauto|]. intros (A & B). split; [split; [exact A|lia]|exact B].
Qed.
Lemma no_primes n : n <= 1 -> prime_count_is n 0.
Proof. intros H. exists []. split; [|reflexivity]. split; [constructor|]. intros p. split; [intros []|]. intros (A & B). apply prime_ge_2 in A. lia. Qed.
Lemma upto_pi n : exists l, primes_upto n l /\ zlen l = pi n.
Proof. destruct (C14_primes n) as (l & _ & H). exists l. split; [exact H|apply pi_list, H]. Qed.
Lemma pi_is n : prime_count_is n (pi n).
Proof. destruct (upto_pi n) as (l & H & E). exists l. split; [exact H|symmetry; exact E]. Qed.

Lemma near_sqrt n : 0 <= n -> exists r, integer_sqrt n = Ret r /\ Z.sqrt n <= r <= Z.sqrt n + 1 /\ n < (r + 1) * (r + 1).
Proof.
  intros H. destruct (C04_integer_sqrt_near n H) as (r & E & B). exists r. split; [exact E|]. split; [exact B|]. pose proof (Z.sqrt_spec n H) as S. unfold Z.succ in S. pose proof (Z.sqrt_nonneg n). nia.
Qed.

Lemma legendre_ok n : exists k, legendre n = Ret k /\ prime_count_is n k.
Proof.
  unfold legendre. destruct (Z.leb_spec n 1) as [L1|L1]; [exists 0; split; [reflexivity|apply no_primes, L1]|].
  destruct (Z.leb_spec n (last PRIME_LIST 0)) as [L2|L2]; [eexists; split; [reflexivity|apply table_pi, L2]|]. rewrite PRIME_LIST_last in L2.
  destruct (near_sqrt n ltac:(lia)) as (r & -> & B & S). cbn [bind]. pose proof (Z.sqrt_spec n ltac:(lia)) as SS. unfold Z.succ in SS. set (s := Z.sqrt n) in *. assert (S3 : 3 <= s) by nia. clearbody s. assert (Rn : r <= n) by nia.
  destruct (C14_primes r) as (ps & -> & H). cbn [bind]. fold (zlen ps). destruct (upto_first r ps H ltac:(lia)) as (Z1 & _).
  destruct (legendre_phi_ok r ps H ltac:(lia) (Datatypes.S (length ps)) n (zlen ps) [] ltac:(lia) ltac:(lia) ltac:(unfold zlen; lia) (good_nil _)) as (c & -> & _). cbn [bind].
  eexists. split; [reflexivity|]. rewrite pref_all. destruct H as (HS & HI). rewrite (Phi_rest one ps r n HI) by lia. fold (pi n) (pi r). rewrite <- (pi_list r ps (conj HS HI)). unfold one.
  replace (1 + pi n - zlen ps + zlen ps - 1) with (pi n) by lia. apply pi_is.
Qed.

(** prime_sum2 *)
Lemma sum_phi_ok N ps : primes_upto N ps -> forall fuel x a c, 0 <= x -> 0 <= a <= zlen ps -> a < Z.of_nat fuel -> good (fun x a => Phi (fun m => m) (pref ps a) x) c ->
  exists c', sum_phi fuel ps x a c = Ret (Phi (fun m => m) (pref ps a) x, c') /\ good (fun x a => Phi (fun m => m) (pref ps a) x) c'.
Proof.
  intros H. induction fuel as [|fuel IH]; intros x a c Hx Ha Hf G; [lia|]. cbn [sum_phi]. destruct (cache_get c x a) as [v|] eqn:Ec; [exists c; split; [rewrite <- (G x a v Ec); reflexivity|exact G]|].
  destruct (Z.eqb_spec x 0) as [-> |]; [exists c; split; [rewrite Phi_0; reflexivity|exact G]|].
  destruct (Z.eqb_spec a 0) as [-> |]; [exists c; split; [rewrite pref_0, Phi_nil, Sum_id by lia; reflexivity|exact G]|].
  destruct (loop_ok N ps H (fun x a => Phi (fun m => m) (pref ps a) x) (sum_phi fuel ps) (fun p => p) x 0 a ltac:(lia) ltac:(lia)) with (value := x * (x + 1) / 2) (c := c) as (c1 & E & G1).
  { intros j c0 Hj Lj G0. pose proof (ps_ge2 N ps H j ltac:(lia)). apply IH; auto; try lia. apply Z.div_pos; lia. }
  { exact G. }
  rewrite E. cbn [bind]. assert (EV : x * (x + 1) / 2 - Sum 0 a (fun j => if x <? rd ps j then 0 else rd ps j * Phi (fun m => m) (pref ps j) (x / rd ps j)) = Phi (fun m => m) (pref ps a) x).
  { rewrite (collapse ps (fun p => p) x (fun j y => Phi (fun m => m) (pref ps j) y)); [|intros j Hj; pose proof (ps_ge2 N ps H j); lia|exact Hx|intros; apply Phi_0].
    rewrite (Phi_unfold N ps H (fun m => m) x 0 a id_completely Hx) by lia. rewrite pref_0, Phi_nil, Sum_id by lia. reflexivity. }
  rewrite EV. eexists. split; [reflexivity|]. apply (good_cons (fun x a => Phi (fun m => m) (pref ps a) x)), G1.
Qed.

Lemma prime_sum2_ok n : 1 <= n -> exists s, prime_sum2 n = Ret s /\ prime_sum_is n s.
Proof.
  intros L1. destruct (Z.eq_dec n 1) as [-> |N1].
  { exists 0. split; [vm_compute; reflexivity|]. exists []. split; [|reflexivity]. split; [constructor|]. intros p. split; [intros []|]. intros (A & B0). apply prime_ge_2 in A. lia. }
  unfold prime_sum2. destruct (near_sqrt n ltac:(lia)) as (r & -> & B & S). cbn [bind]. pose proof (Z.sqrt_spec n ltac:(lia)) as SS. unfold Z.succ in SS. set (s := Z.sqrt n) in *. assert (S0 : 0 <= s) by apply Z.sqrt_nonneg.
  destruct (C14_primes r) as (ps & -> & H). cbn [bind]. fold (zlen ps).
  destruct (sum_phi_ok r ps H (Datatypes.S (length ps)) n (zlen ps) [] ltac:(lia) ltac:(unfold zlen; lia) ltac:(unfold zlen; lia) (good_nil _)) as (c & -> & _). cbn [bind].
  eexists. split; [reflexivity|]. rewrite pref_all.
  assert (EQ : Phi (fun m => m) ps n + zsum ps - 1 = PS (fun m => m) n).
  { destruct (Z_le_gt_dec r n) as [Lr|Lr].
    - destruct H as (HS & HI). assert (1 <= r) by nia. rewrite (Phi_rest (fun m => m) ps r n HI) by lia. rewrite <- (map_id ps) at 1. rewrite (PS_list (fun m => m) r ps (conj HS HI)). lia.
    - exfalso. nia. }
  rewrite EQ. destruct (upto_pi n) as (l & Hl & _). exists l. split; [exact Hl|]. rewrite <- (PS_list (fun m => m) n l Hl), map_id. reflexivity.
Qed.
