(** * Lehmer's method: the function phi and the arithmetic of the bounds *)
From Coq Require Import ZArith List Lia Bool Znumtheory Sorted.
From Verif Require Import Base Py Sums Lists Primes_Spec PrimeList_Data PrimeList_Proofs Core_Model Core_Spec Core_Props Sieves_Model Primes_Props PC_Model PC_Spec PC_Proofs PC_Proofs2 PC_Proofs3 PC_Proofs5 PC_Proofs6.
From Verif Require Bertrand2.
Import ListNotations.
Open Scope Z_scope.

Definition p4 (x : Z) : Z := x * x * (x * x).
Lemma sq_mono a b : 0 <= a <= b -> a * a <= b * b.
Proof. intros. apply Z.mul_le_mono_nonneg; lia. Qed.
Lemma p4_lt a b : 0 <= a -> 0 <= b -> p4 a < p4 b -> a < b.
Proof. intros A B H. unfold p4 in H. apply sq_lt; [lia|lia|]. apply sq_lt; [nia|nia|exact H]. Qed.
Lemma p4_mono a b : 0 <= a <= b -> p4 a <= p4 b.
Proof. intros H. unfold p4. apply sq_mono. split; [nia|]. apply sq_mono, H. Qed.

Lemma last_rd (l : list Z) : l <> [] -> last l 0 = rd l (zlen l - 1).
Proof.
  intros H. destruct (exists_last H) as (l' & x & ->). rewrite last_last. unfold rd, zlen. rewrite app_length. cbn [length]. destruct (Z.ltb_spec (Z.of_nat (length l' + 1) - 1) 0); [lia|].
  replace (Z.to_nat (Z.of_nat (length l' + 1) - 1)) with (length l') by lia. rewrite app_nth2, Nat.sub_diag by lia. reflexivity.
Qed.

Section lehmer.
  Context (n root r4 : Z) (fsqrt : Z -> Z) (ps : list Z).
  Hypothesis (Hn : 999983 < n) (Hroot : 0 <= root /\ p4 root <= n * n * n < p4 (root + 1)) (Hr4 : 0 <= r4 /\ p4 r4 <= n < p4 (r4 + 1)).
  Hypothesis (Fl : sqrt_exact n fsqrt) (HP : primes_upto root ps).
  Notation lp := (last ps 0).

  Lemma r4_big : 31 <= r4.
  Proof using Hn Hr4. destruct Hr4 as (A & B & C). assert (31 < r4 + 1); [|lia]. apply p4_lt; [lia|lia|]. apply Z.le_lt_trans with n; [|exact C]. unfold p4. lia. Qed.
  Lemma r4_sq : r4 * r4 <= Z.sqrt n.
  Proof using Hn Hr4. destruct Hr4 as (A & B & C). apply (proj1 (Z.sqrt_le_square n (r4 * r4) ltac:(lia) ltac:(clear - A; nia))). exact B. Qed.
  Lemma s_spec : 999 <= Z.sqrt n /\ Z.sqrt n * Z.sqrt n <= n < (Z.sqrt n + 1) * (Z.sqrt n + 1).
  Proof using Hn. pose proof (Z.sqrt_spec n ltac:(lia)) as S. cbv zeta in S. unfold Z.succ in S. split; [|exact S]. set (s := Z.sqrt n) in *. clearbody s. clear - S Hn. nia. Qed.
  Lemma root_s : 31 * Z.sqrt n <= root.
  Proof using Hn Hroot.
    destruct s_spec as (S1 & S2 & _). destruct Hroot as (A & _ & C). set (s := Z.sqrt n) in *. clearbody s.
    assert (31 * s < root + 1); [|lia]. apply sq_lt; [lia|lia|]. assert (X : s * s * s < (root + 1) * (root + 1)).
    { apply sq_lt; [nia|nia|]. apply Z.le_lt_trans with (n * n * n); [|exact C]. replace (s * s * s * (s * s * s)) with ((s * s) * (s * s) * (s * s)) by ring. apply cube_mono. nia. }
    apply Z.le_lt_trans with (s * s * s); [|exact X]. replace (31 * s * (31 * s)) with (s * s * 961) by ring. apply Z.mul_le_mono_nonneg_l; [nia|lia].
  Qed.
  Lemma quot_root p : r4 < p -> 0 <= n / p <= root.
  Proof using Hn Hroot Hr4.
    intros Hp. destruct Hr4 as (A & B & C), Hroot as (D & E & F). assert (Q : 0 <= n / p) by (apply Z.div_pos; lia). split; [exact Q|]. assert (n / p < root + 1); [|lia]. apply p4_lt; [exact Q|lia|]. apply Z.le_lt_trans with (n * n * n); [|exact F].
    pose proof (Z.mul_div_le n p ltac:(lia)) as M. set (q := n / p) in *. clearbody q. assert (P4 : n <= p4 p) by (assert (p4 (r4 + 1) <= p4 p) by (apply p4_mono; lia); lia).
    assert (X : p4 (p * q) <= p4 n) by (apply p4_mono; split; [apply Z.mul_nonneg_nonneg|]; lia). assert (Q4 : 0 <= p4 q) by (unfold p4; nia).
    destruct (Z_le_gt_dec (p4 q) (n * n * n)) as [|G]; [assumption|exfalso]. assert (n * (n * n * n) < p4 p * p4 q); [|replace (p4 (p * q)) with (p4 p * p4 q) in X by (unfold p4; ring); replace (p4 n) with (n * (n * n * n)) in X by (unfold p4; ring); lia].
    apply Z.lt_le_trans with (n * p4 q); [apply Z.mul_lt_mono_pos_l; lia|apply Z.mul_le_mono_nonneg_r; lia].
  Qed.

  Lemma root17 : 17 <= root.
  Proof using Hn Hroot. pose proof root_s. pose proof s_spec. lia. Qed.
  Lemma some : 7 <= zlen ps.
  Proof using Hn Hroot HP. apply (pref7 root ps HP root17). Qed.
  Lemma lp_rd : lp = rd ps (zlen ps - 1).
  Proof using Hn Hroot HP. apply last_rd. pose proof some. destruct ps; [cbn in *; lia|discriminate]. Qed.
  Lemma lp_le : lp <= root.
  Proof using Hn Hroot HP. pose proof some. rewrite lp_rd. apply (ps_bound root ps HP). lia. Qed.
  Lemma lp_max p : prime p -> p <= root -> p <= lp.
  Proof using Hn Hroot HP.
    intros P L. pose proof some. rewrite lp_rd. assert (I : In p ps) by (apply HP; auto). apply In_rd in I as (j & Hj & <-). apply (ps_le root ps HP); lia.
  Qed.
  Lemma lp_half : root < 2 * lp.
  Proof using Hn Hroot HP.
    pose proof root17. destruct (Bertrand2.bertrand (root / 2)) as (p & P & B); [apply Z.div_le_lower_bound; lia|]. pose proof (Z.mul_div_le root 2 ltac:(lia)). pose proof (lp_max p P ltac:(lia)). pose proof (Z.div_mod root 2 ltac:(lia)). pose proof (Z.mod_pos_bound root 2 ltac:(lia)). lia.
  Qed.

  (** What phi returns. *)
  Fixpoint FV (k : nat) (x a : Z) : Z :=
    match k with
    | O => 0
    | S k => if a <=? 7 then Phi one (pref ps a) x
             else if (pi (Z.sqrt x) <=? a) && (x <? lp) then pi x - a + 1
             else (x + 1) / 2 - Sum 1 a (fun j => if x <? rd ps j then 0 else 1 * FV k (x / rd ps j) j)
    end.
  Definition V (x a : Z) : Z := FV (S (Z.to_nat a)) x a.
  Lemma FV_indep k : forall k' x a, a < Z.of_nat k -> a < Z.of_nat k' -> 0 <= a -> FV k x a = FV k' x a.
  Proof using.
    induction k as [|k IH]; intros [|k'] x a H H' H0; try lia. cbn [FV]. destruct (a <=? 7); [reflexivity|]. destruct ((pi (Z.sqrt x) <=? a) && (x <? lp)); [reflexivity|]. f_equal. apply Sum_ext. intros j Hj. destruct (x <? rd ps j); [reflexivity|]. rewrite (IH k') by lia. reflexivity.
  Qed.
  Lemma V_eq x a : 0 <= a -> V x a = if a <=? 7 then Phi one (pref ps a) x
             else if (pi (Z.sqrt x) <=? a) && (x <? lp) then pi x - a + 1
             else (x + 1) / 2 - Sum 1 a (fun j => if x <? rd ps j then 0 else 1 * V (x / rd ps j) j).
  Proof using.
    intros H. unfold V at 1. cbn [FV]. destruct (a <=? 7); [reflexivity|]. destruct ((pi (Z.sqrt x) <=? a) && (x <? lp)); [reflexivity|]. f_equal. apply Sum_ext. intros j Hj. destruct (x <? rd ps j); [reflexivity|]. f_equal. apply FV_indep; lia.
  Qed.

  Lemma lehmer_phi_ok : forall fuel x a c, 0 <= x <= n -> 1 <= a <= zlen ps -> a < Z.of_nat fuel -> good V c -> exists c', lehmer_phi fsqrt fuel ps x a c = Ret (V x a, c') /\ good V c'.
  Proof using All.
    induction fuel as [|fuel IH]; intros x a c Hx Ha Hf G; [lia|]. cbn [lehmer_phi]. destruct (cache_get c x a) as [v|] eqn:Ec; [exists c; split; [rewrite (G x a v Ec); reflexivity|exact G]|].
    assert (W : forall v c', good V c' -> v = V x a -> exists c'', Ret (v, (x, a, v) :: c') = Ret (V x a, c'') /\ good V c'') by (intros v c' G' ->; eexists; split; [reflexivity|apply good_cons, G']).
    pose proof (V_eq x a ltac:(lia)) as EV. rewrite (Fl x Hx). assert (SQ : Z.sqrt x <= root) by (pose proof (Z.sqrt_le_mono x n ltac:(lia)); pose proof root_s; pose proof s_spec; lia). rewrite (pi_bisect root ps HP) by exact SQ.
    destruct (Z.leb_spec a 7) as [L7|L7]; [cbn [bind]; apply W; [exact G|]; rewrite EV; apply (closed_ok root ps HP root17); lia|].
    destruct ((pi (Z.sqrt x) <=? a) && (x <? lp)) eqn:B.
    { cbn [bind]. apply W; [exact G|]. apply andb_prop in B as (_ & B). apply Z.ltb_lt in B. rewrite (pi_bisect root ps HP) by (pose proof lp_le; lia). rewrite EV. reflexivity. }
    destruct (loop_ok root ps HP V (lehmer_phi fsqrt fuel ps) (fun _ => 1) x 1 a ltac:(lia) ltac:(lia)) with (value := (x + 1) / 2) (c := c) as (c1 & E & G1).
    { intros j c0 Hj Lj G0. pose proof (ps_ge2 root ps HP j ltac:(lia)). apply IH; [pose proof (div_le (rd ps j) x ltac:(lia) ltac:(lia)); lia|lia|lia|exact G0]. }
    { exact G. }
    rewrite E. cbn [bind]. apply W; [exact G1|]. rewrite EV. reflexivity.
  Qed.

  Lemma V_direct x a : 7 < a -> pi (Z.sqrt x) <= a -> x < lp -> V x a = pi x - a + 1.
  Proof using. intros A B C. rewrite V_eq by lia. destruct (Z.leb_spec a 7); [lia|]. destruct (Z.leb_spec (pi (Z.sqrt x)) a); [|lia]. destruct (Z.ltb_spec x lp); [|lia]. reflexivity. Qed.

  Definition ldom (x a : Z) : Prop := 1 <= x <= n /\ 1 <= a <= zlen ps /\ rd ps (a - 1) <= x /\ (x < lp \/ rd ps (a - 1) <= r4).
  Lemma V_rec x a : 1 <= x -> 1 <= a <= zlen ps -> (forall j, 1 <= j < a -> rd ps j <= x -> V (x / rd ps j) j = Phi one (pref ps j) (x / rd ps j)) -> 
     (x + 1) / 2 - Sum 1 a (fun j => if x <? rd ps j then 0 else 1 * V (x / rd ps j) j) = Phi one (pref ps a) x.
  Proof using HP Hn Hroot.
    intros Hx Ha H. rewrite (Sum_ext 1 a _ (fun j => if x <? rd ps j then 0 else 1 * Phi one (pref ps j) (x / rd ps j))).
    2:{ intros j Hj. destruct (Z.ltb_spec x (rd ps j)); [reflexivity|]. rewrite H by lia. reflexivity. }
    rewrite (collapse ps (fun _ => 1) x (fun j y => Phi one (pref ps j) y)); [|intros j Hj; pose proof (ps_ge2 root ps HP j); lia|lia|intros; apply Phi_0].
    pose proof root17. rewrite (Phi_unfold root ps HP one x 1 a one_completely) by lia. rewrite (Phi_two root ps x HP) by lia. reflexivity.
  Qed.
  Lemma direct_Phi x a : 1 <= x -> 1 <= a <= zlen ps -> pi (Z.sqrt x) <= a -> Z.sqrt x <= root -> rd ps (a - 1) <= x -> Phi one (pref ps a) x = pi x - a + 1.
  Proof using HP.
    intros Hx Ha B4 SR Hp. pose proof (Z.sqrt_spec x ltac:(lia)) as SS. cbv zeta in SS. unfold Z.succ in SS. set (s := Z.sqrt x) in *. assert (S1 : 1 <= s) by (apply (sqrt_ge1 s x); try lia; apply Z.sqrt_nonneg). clearbody s.
    set (y := Z.max s (rd ps (a - 1))). assert (Ey : pi y = a). { pose proof (pi_at root ps HP (a - 1) ltac:(lia)) as A1. unfold y. destruct (Z.max_spec s (rd ps (a - 1))) as [(M1 & ->)|(M1 & ->)]; [lia|]. pose proof (pi_mono _ _ M1). lia. }
    rewrite <- Ey at 1. assert (SX : s <= x) by (clear - SS S1; nia). assert (Py : y <= root) by (pose proof (ps_bound root ps HP (a - 1)); lia). rewrite (Phi_pi root ps HP y x); [lia|exact Py|lia|]. assert (Sy : s <= y) by lia. clear - SS S1 Sy. nia.
  Qed.
  Lemma V_good_n : forall k x a, ldom x a -> a < Z.of_nat k -> V x a = Phi one (pref ps a) x.
  Proof using HP Hn Hroot Hr4.
    induction k as [|k IH]; intros x a (Hx & Ha & Hp & Hd) Hk; [lia|]. rewrite V_eq by lia. destruct (Z.leb_spec a 7) as [L7|L7]; [reflexivity|].
    assert (SR : Z.sqrt x <= root) by (pose proof (Z.sqrt_le_mono x n ltac:(lia)); pose proof root_s; pose proof s_spec; lia).
    destruct ((pi (Z.sqrt x) <=? a) && (x <? lp)) eqn:B.
    { apply andb_prop in B as (B & _). apply Z.leb_le in B. symmetry. apply direct_Phi; assumption || lia. }
    apply V_rec; [lia|lia|]. intros j Hj Lj. pose proof (ps_ge2 root ps HP j ltac:(lia)) as G2. pose proof (ps_le root ps HP (j - 1) (a - 1) ltac:(lia) ltac:(lia)) as M1. pose proof (ps_le root ps HP j (a - 1) ltac:(lia) ltac:(lia)) as M2. pose proof (ps_le root ps HP (j - 1) j ltac:(lia) ltac:(lia)) as M3.
    pose proof (div_le (rd ps j) x ltac:(lia) ltac:(lia)) as DL. apply IH; [|lia]. split; [split; [apply Z.div_le_lower_bound; lia|lia]|]. split; [lia|].
    assert (X : rd ps j <= x / rd ps j); [|split; [lia|]; destruct Hd; [left; lia|right; lia]].
    destruct (Z_lt_le_dec x lp) as [XL|XL].
    - assert (a < pi (Z.sqrt x)). { apply andb_false_iff in B as [B|B]; [apply Z.leb_gt in B; lia|apply Z.ltb_ge in B; lia]. }
      assert (rd ps j <= Z.sqrt x) by (apply (pi_rd root ps HP); lia). apply (div_ge _ (Z.sqrt x)); [lia|]. apply Z.sqrt_spec. lia.
    - destruct Hd as [Hd|Hd]; [lia|]. apply (div_ge _ r4); [lia|]. pose proof lp_half. pose proof root_s. pose proof s_spec. pose proof r4_sq. lia.
  Qed.
  Lemma V_good x a : ldom x a -> V x a = Phi one (pref ps a) x.
  Proof using HP Hn Hroot Hr4. intros H. apply (V_good_n (S (Z.to_nat a)) x a H). destruct H as (_ & H & _). lia. Qed.
End lehmer.
