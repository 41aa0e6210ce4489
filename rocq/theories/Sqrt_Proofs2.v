(** * Square roots modulo prime powers and modulo n; quadratic congruences *)
From Coq Require Import ZArith List Bool Lia Znumtheory Sorted Permutation.
From Verif Require Import Base Py Lists Lists2 Sums NT NT_Euler Core_Model Core_Spec Core_Props Zn_Model Zn_Props Factor_Model Factor_Spec Factor_Proofs Div_Proofs Div_Proofs2 Arith_Spec Arith_Proofs
  NT_Cong NT_Prim NT_Prim2 Ord_Spec Ord_Model Ord_Proofs Ord_Proofs2 QR_Spec NT_QR QR_Proofs Sqrt_Model Sqrt_Proofs.
Import ListNotations.
Open Scope Z_scope.

Lemma mapM_ok {A B} (f : A -> outcome B) (P : A -> B -> Prop) l : (forall x, In x l -> exists y, f x = Ret y /\ P x y) -> exists ys, mapM f l = Ret ys /\ Forall2 P l ys.
Proof.
  induction l as [|x l IH]; intros H; [exists []; split; [reflexivity|constructor]|]. destruct (H x (or_introl eq_refl)) as (y & E & Py). destruct IH as (ys & Es & Ps); [intros z Hz; apply H; right; exact Hz|]. exists (y :: ys). cbn [mapM]. rewrite E. cbn [bind]. rewrite Es. split; [reflexivity|constructor; assumption].
Qed.

Lemma sorted_NoDup l : StronglySorted Z.lt l -> NoDup l.
Proof. intros S. induction S as [|x l S IH F]; constructor; [|exact IH]. intros H. rewrite Forall_forall in F. specialize (F x H). lia. Qed.

(** ** One lift *)
Lemma shift_form q p r x : 0 < q -> 0 < p -> 0 <= r < q -> (0 <= x < p * q /\ cg q x r <-> exists t, 0 <= t < p /\ x = r + t * q).
Proof.
  intros Hq Hp Hr. split.
  - intros (Hx & C). exists (x / q). split; [split; [apply Z.div_pos; lia|apply Z.div_lt_upper_bound; lia]|]. pose proof (Z.div_mod x q ltac:(lia)) as D. assert (E : x mod q = r) by (apply cg_eq; assumption). lia.
  - intros (t & Ht & ->). split; [nia|]. apply cg_div. exists t. ring.
Qed.

Lemma lift_ok a r p k : prime p -> 1 <= k -> 0 <= r < p ^ k -> cg (p ^ k) (r * r) a ->
  exists l, quadratic_lift a r p k = Ret l /\ NoDup l /\ forall x, In x l <-> 0 <= x < p ^ (k + 1) /\ cg (p ^ k) x r /\ cg (p ^ (k + 1)) (x * x) a.
Proof.
  intros Hp Hk Hr C. pose proof (prime_ge2 p Hp) as P2. pose proof (Z.pow_pos_nonneg p k ltac:(lia) ltac:(lia)) as Q. unfold quadratic_lift. destruct (Z.ltb_spec k 1); [lia|]. destruct (Z.ltb_spec p 2); [lia|].
  assert (Epq : p ^ (k + 1) = p * p ^ k) by (rewrite Z.pow_add_r, Z.pow_1_r by lia; ring). assert (Dpq : (p | p ^ k)) by (exists (p ^ (k - 1)); replace k with (Z.succ (k - 1)) at 1 by lia; rewrite Z.pow_succ_r by lia; ring).
  rewrite Epq. set (q := p ^ k) in *. apply cg_div in C as (c & Ec). assert (Em : (r * r - a) mod q = 0) by (rewrite Ec; apply Z_mod_mult). rewrite Em. cbn [Z.eqb negb].
  assert (K : forall t, cg (p * q) ((r + t * q) * (r + t * q)) a <-> (p | c + 2 * r * t)).
  { intros t. rewrite cg_div. replace ((r + t * q) * (r + t * q) - a) with ((c + 2 * r * t + t * t * q) * q) by (transitivity (r * r - a + 2 * r * t * q + t * t * q * q); [rewrite Ec; ring|ring]). split.
    - intros D. apply Z.mul_divide_cancel_r in D; [|lia]. apply (Z.divide_add_cancel_r p (t * t * q)); [apply Z.divide_mul_r; exact Dpq|]. rewrite Z.add_comm. exact D.
    - intros D. apply Z.mul_divide_mono_r. apply Z.divide_add_r; [exact D|apply Z.divide_mul_r; exact Dpq]. }
  assert (X : forall x, 0 <= x < p * q /\ cg q x r /\ cg (p * q) (x * x) a <-> exists t, 0 <= t < p /\ x = r + t * q /\ (p | c + 2 * r * t)).
  { intros x. split.
    - intros (Hx & C1 & C2). destruct (proj1 (shift_form q p r x Q ltac:(lia) Hr) (conj Hx C1)) as (t & Ht & Et). exists t. split; [exact Ht|]. split; [exact Et|]. apply K. rewrite <- Et. exact C2.
    - intros (t & Ht & Et & D). destruct (proj2 (shift_form q p r x Q ltac:(lia) Hr)) as (Hx & C1); [exists t; auto|]. split; [exact Hx|]. split; [exact C1|]. rewrite Et. apply K. exact D. }
  destruct (Z.eqb_spec ((2 * r) mod p) 0) as [Z0|N0]; cbn [negb].
  - assert (D2 : (p | 2 * r)) by (apply Z.mod_divide; [lia|exact Z0]). destruct (Z.eqb_spec ((r * r - a) mod (p * q)) 0) as [E|N].
    + eexists. split; [reflexivity|]. split.
      * apply sorted_NoDup, zsort_strict. apply NoDup_map_inj; [apply zrange_NoDup|]. intros i j _ _ E'. nia.
      * intros x. rewrite zsort_In, in_map_iff, X. assert (Dc : (p | c)). { apply Z.mod_divide in E; [|nia]. rewrite Ec in E. apply Z.mul_divide_cancel_r in E; [exact E|lia]. } split.
        -- intros (t & <- & Ht). apply zrange_In in Ht. exists t. split; [exact Ht|]. split; [reflexivity|]. apply Z.divide_add_r; [exact Dc|]. apply Z.divide_mul_l. exact D2.
        -- intros (t & Ht & -> & _). exists t. split; [reflexivity|apply zrange_In; exact Ht].
    + exists []. split; [reflexivity|]. split; [constructor|]. intros x. rewrite X. split; [intros []|]. intros (t & Ht & _ & D). exfalso. apply N. apply Z.mod_divide; [nia|]. rewrite Ec. apply Z.mul_divide_mono_r. apply (Z.divide_add_cancel_r p (2 * r * t)); [apply Z.divide_mul_l; exact D2|]. rewrite Z.add_comm. exact D.
  - assert (G : Z.gcd (2 * r) p = 1). { apply Zgcd_1_rel_prime, rel_prime_sym, prime_rel_prime; [exact Hp|]. intros D. apply N0. apply Z.mod_divide; [lia|exact D]. }
    destruct (C03_inverse_mod (2 * r) p ltac:(lia) G) as (v & -> & Hv & Ev & _). cbn [bind]. assert (Cv : cg p (2 * r * v) 1) by (constructor; rewrite Ev, Z.mod_small by lia; reflexivity).
    replace ((r * r - a) / q) with c by (rewrite Ec, Z.div_mul by lia; reflexivity). set (t0 := (- v * c) mod p). assert (Bt : 0 <= t0 < p) by (apply Z.mod_pos_bound; lia).
    assert (D0 : forall t, (p | c + 2 * r * t) <-> cg p t (- v * c)).
    { intros t. rewrite <- cg_0. split; intros D.
      - apply (cg_cancel p (2 * r) _ _ G). replace (2 * r * (- v * c)) with (- (2 * r * v) * c) by ring. rewrite Cv. apply cg_div. apply cg_0 in D. match goal with |- (p | ?X) => replace X with (c + 2 * r * t) by ring end. exact D.
      - rewrite D. replace (c + 2 * r * (- v * c)) with (c - 2 * r * v * c) by ring. rewrite Cv. constructor. f_equal. ring. }
    eexists. split; [reflexivity|]. split; [constructor; [intros []|constructor]|]. intros x. rewrite X. cbn. split.
    + intros [<-|[]]. exists t0. split; [exact Bt|]. split; [reflexivity|]. apply D0. apply cg_mod.
    + intros (t & Ht & -> & D). left. apply D0 in D. assert (t = t0) by (apply (cg_small p); [unfold t0; rewrite cg_mod; exact D|exact Ht|exact Bt]). subst t. reflexivity.
Qed.

(** The list of the square roots of a modulo m. *)
Definition roots_list (a m : Z) (l : list Z) : Prop := NoDup l /\ forall x, In x l <-> 0 <= x < m /\ cg m (x * x) a.

Lemma lift_step_ok a p e l : prime p -> 1 <= e -> roots_list a (p ^ e) l -> exists l', lift_step a p l e = Ret l' /\ roots_list a (p ^ (e + 1)) l'.
Proof.
  intros Hp He (ND & H). unfold lift_step. pose proof (prime_ge2 p Hp) as P2. pose proof (Z.pow_pos_nonneg p e ltac:(lia) ltac:(lia)) as Q.
  destruct (mapM_ok (fun root => quadratic_lift a root p e) (fun r y => NoDup y /\ forall x, In x y <-> 0 <= x < p ^ (e + 1) /\ cg (p ^ e) x r /\ cg (p ^ (e + 1)) (x * x) a) l) as (ys & E & F).
  { intros r Hr. apply H in Hr as (Hr & Cr). apply lift_ok; assumption. }
  rewrite E. cbn [bind]. eexists. split; [reflexivity|].
  assert (In1 : forall x, In x (concat ys) <-> exists r, In r l /\ 0 <= x < p ^ (e + 1) /\ cg (p ^ e) x r /\ cg (p ^ (e + 1)) (x * x) a).
  { clear - F. induction F as [|r y l ys (_ & Hy) F IH]; intros x; cbn [concat]; [split; [intros []|intros (r & [] & _)]|]. rewrite in_app_iff, IH, Hy. split.
    - intros [K|(s & Hs & K)]; [exists r; split; [left; reflexivity|exact K]|exists s; split; [right; exact Hs|exact K]].
    - intros (s & [<-|Hs] & K); [left; exact K|right; exists s; auto]. }
  split.
  - assert (Rl : forall r, In r l -> 0 <= r < p ^ e) by (intros r Hr; apply H in Hr; apply Hr). clear - F ND Rl. induction F as [|r y l ys (Ny & Hy) F IH]; cbn [concat]; [constructor|]. inversion ND as [|? ? Nr ND1]; subst. apply NoDup_app_intro; [exact Ny|apply IH; [exact ND1|intros s Hs; apply Rl; right; exact Hs]|].
    intros x Hx Hx'. apply Hy in Hx as (_ & C1 & _). assert (G : exists s, In s l /\ cg (p ^ e) x s). { clear - F Hx'. induction F as [|s y l ys (_ & Hy) F IH]; [destruct Hx'|]. cbn [concat] in Hx'. apply in_app_or in Hx' as [K|K]; [exists s; split; [left; reflexivity|apply Hy in K; apply K]|]. destruct (IH K) as (s' & Hs' & Cs'). exists s'. split; [right; exact Hs'|exact Cs']. }
    destruct G as (s & Hs & C2). apply Nr. assert (r = s); [|subst; exact Hs]. apply (cg_small (p ^ e)); [rewrite <- C1; exact C2|apply Rl; left; reflexivity|apply Rl; right; exact Hs].
  - intros x. rewrite In1. split; [intros (r & _ & Hx & _ & C); auto|]. intros (Hx & C). exists (x mod p ^ e). assert (Cm : cg (p ^ e) (x mod p ^ e) x) by apply cg_mod. split; [apply H; split; [apply Z.mod_pos_bound; lia|]|].
    + rewrite Cm. apply (cg_weaken (p ^ (e + 1))); [exists p; rewrite Z.pow_add_r, Z.pow_1_r by lia; ring|exact C].
    + split; [exact Hx|]. split; [symmetry; exact Cm|exact C].
Qed.

Lemma lifts_ok a p e k l : prime p -> 1 <= e <= k -> roots_list a (p ^ e) l -> exists l', foldM (lift_step a p) (zrange e k) l = Ret l' /\ roots_list a (p ^ k) l'.
Proof.
  intros Hp He H. apply (foldM_range (lift_step a p) (fun i l => roots_list a (p ^ i) l)); [lia|exact H|]. intros i s Hi Hs. apply lift_step_ok; [exact Hp|lia|exact Hs].
Qed.

Lemma filter_roots a m : 0 < m -> roots_list a m (filter (fun e => e * e mod m =? a mod m) (zrange 0 m)).
Proof.
  intros Hm. split; [apply NoDup_filter, zrange_NoDup|]. intros x. rewrite filter_In, zrange_In, Z.eqb_eq, cg_iff. reflexivity.
Qed.

Lemma sqrts_mod_pk_ok draw fuel a p k : prime p -> 1 <= k -> lucky draw fuel p ->
  exists l, sqrts_mod_pk draw fuel a p k = Ret l /\ StronglySorted Z.lt l /\ forall x, In x l <-> 0 <= x < p ^ k /\ cg (p ^ k) (x * x) a.
Proof.
  intros Hp Hk Lk. unfold sqrts_mod_pk. destruct (sqrts_mod_p_ok draw fuel a p Hp Lk) as (l1 & E1 & S1 & H1). destruct (Z.eqb_spec k 1) as [->|N1]; [rewrite Z.pow_1_r; exists l1; auto|].
  assert (Fin : forall sols, roots_list a (p ^ k) sols -> exists l, Ret (zsort sols) = Ret l /\ StronglySorted Z.lt l /\ forall x, In x l <-> 0 <= x < p ^ k /\ cg (p ^ k) (x * x) a).
  { intros sols (ND & H). eexists. split; [reflexivity|]. split; [apply zsort_strict; exact ND|]. intros x. rewrite zsort_In. apply H. }
  destruct (Z.eqb_spec p 2) as [->|N2].
  - destruct (Z.eqb_spec k 2) as [->|N3]; cbn [bind]; [apply Fin; apply (filter_roots a 4); lia|]. pose proof (filter_roots a 8 ltac:(lia)) as F8. destruct (filter _ _) as [|s sols] eqn:Es.
    + cbn [bind]. apply Fin. split; [constructor|]. intros x. split; [intros []|]. intros (Hx & C). destruct F8 as (_ & F8). apply (F8 (x mod 8)). split; [apply Z.mod_pos_bound; lia|]. rewrite cg_mod. apply (cg_weaken (2 ^ k)); [exists (2 ^ (k - 3)); change 8 with (2 ^ 3); rewrite <- Z.pow_add_r by lia; f_equal; lia|exact C].
    + destruct (Z.ltb_spec 3 k) as [L|L].
      * destruct (lifts_ok a 2 3 k (s :: sols) Hp ltac:(lia) F8) as (l & -> & H). cbn [bind]. apply Fin. exact H.
      * cbn [bind]. apply Fin. replace k with 3 by lia. exact F8.
  - rewrite E1. cbn [bind]. destruct (lifts_ok a p 1 k l1 Hp ltac:(lia)) as (l & -> & H); [rewrite Z.pow_1_r; split; [apply sorted_NoDup; exact S1|exact H1]|]. cbn [bind]. apply Fin. exact H.
Qed.

(** ** Chinese remainders *)
Lemma cg_fac n l x y : factorization n l -> (cg n x y <-> forall p k, In (p, k) l -> cg (p ^ k) x y).
Proof.
  revert n. induction l as [|(p, e) l IH]; intros n F.
  - destruct F as (_ & _ & V). cbn in V. subst n. split; [intros _ p k []|]. intros _. constructor. rewrite !Z.mod_1_r. reflexivity.
  - apply factorization_cons in F as (Hp & He & En & Fl & Gt). pose proof (prime_ge2 p Hp). rewrite En. assert (G : Z.gcd (p ^ e) (fac_value l) = 1) by (apply gcd_1_pow; [lia|]; apply coprime_rest; assumption). split.
    + intros C q k [E|Hin].
      * injection E as <- <-. apply (cg_weaken (p ^ e * fac_value l)); [apply Z.divide_factor_l|exact C].
      * apply (proj1 (IH _ Fl)); [|exact Hin]. apply (cg_weaken (p ^ e * fac_value l)); [apply Z.divide_factor_r|exact C].
    + intros C. apply cg_crt; [exact G|apply C; left; reflexivity|]. apply (IH _ Fl). intros q k Hin. apply C. right. exact Hin.
Qed.

Lemma fac_coprime n l : factorization n l -> pairwise_coprime (map (fun pk => fst pk ^ snd pk) l).
Proof.
  revert n. induction l as [|(p, e) l IH]; intros n F; [constructor|]. apply factorization_cons in F as (Hp & He & En & Fl & Gt). cbn [map fst snd]. constructor; [|apply (IH _ Fl)]. apply Forall_forall. intros m Hm. apply in_map_iff in Hm as ((q, k) & <- & Hin). cbn [fst snd].
  destruct Fl as (_ & Ap & _). destruct (Ap q k Hin) as (Hq & Hk). specialize (Gt q k Hin). pose proof (prime_ge2 p Hp). pose proof (prime_ge2 q Hq). apply gcd_1_pow; [lia|]. rewrite Z.gcd_comm. apply gcd_1_pow; [lia|]. apply prime_coprime; [exact Hq|exact Hp|lia].
Qed.

Lemma fac_value_zprod l : fac_value l = zprod (map (fun pk => fst pk ^ snd pk) l).
Proof. induction l as [|(p, e) l IH]; [reflexivity|]. cbn [map fst snd]. rewrite zprod_cons, <- IH. reflexivity. Qed.

Lemma product_In {A} (ls : list (list A)) s : In s (product ls) <-> Forall2 (fun x l => In x l) s ls.
Proof.
  revert s. induction ls as [|l ls IH]; intros s; cbn [product].
  - split; [intros [<-|[]]; constructor|intros F; inversion F; left; reflexivity].
  - rewrite in_flat_map. split.
    + intros (x & Hx & Hs). apply in_map_iff in Hs as (s' & <- & Hs'). constructor; [exact Hx|apply IH; exact Hs'].
    + intros F. inversion F as [|x ? s' ? Hx F']; subst. exists x. split; [exact Hx|]. apply in_map_iff. exists s'. split; [reflexivity|apply IH; exact F'].
Qed.
Lemma product_NoDup {A} (ls : list (list A)) : Forall (@NoDup A) ls -> NoDup (product ls).
Proof.
  induction ls as [|l ls IH]; intros F; cbn [product]; [constructor; [intros []|constructor]|]. inversion F as [|? ? Nl Fl]; subst. apply NoDup_flat_map; [exact Nl| |].
  - intros x _. apply NoDup_map_inj; [apply IH; exact Fl|]. intros s t _ _ E. injection E as E. exact E.
  - intros x y s _ _ H1 H2. apply in_map_iff in H1 as (s1 & E1 & _). apply in_map_iff in H2 as (s2 & E2 & _). rewrite <- E1 in E2. injection E2 as E2 _. symmetry. exact E2.
Qed.
