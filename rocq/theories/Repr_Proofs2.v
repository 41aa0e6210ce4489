(** * The text of a polynomial *)
From Coq Require Import Ascii String ZArith List Bool Lia Sorting.Permutation.
From Verif Require Import Base Py Lists Lists2 Sums Poly_Spec Poly_Model Repr_Spec Repr_Model Repr_Proofs.
Import ListNotations.
Open Scope Z_scope.

Definition degree (p : list Z) : Z := len p - 1.
Definition coefs (p : list Z) (b : Z) : list (Z * Z) := map (fun i => (i, nth (Z.to_nat i) p 0)) (zrange 0 b).
Definition nonzero (t : Z * Z) : bool := negb (snd t =? 0).
Definition lower (p : list Z) : list (Z * Z) := rev (filter nonzero (coefs p (degree p))).

Lemma lower_In p d c : In (d, c) (lower p) <-> 0 <= d < degree p /\ c = nth (Z.to_nat d) p 0 /\ c <> 0.
Proof.
  unfold lower. rewrite <- in_rev, filter_In. unfold coefs. rewrite in_map_iff. split.
  - intros ((i & E & Hi) & N). injection E as -> <-. apply zrange_In in Hi. unfold nonzero in N. cbn [snd] in N. split; [exact Hi|]. split; [reflexivity|].
    intros E. rewrite E in N. discriminate.
  - intros (Hd & -> & N). split; [exists d; split; [reflexivity|apply zrange_In, Hd]|]. unfold nonzero. cbn [snd]. apply negb_true_iff, Z.eqb_neq, N.
Qed.

Lemma nth_last_eq (p : list Z) : p <> [] -> nth (Z.to_nat (degree p)) p 0 = last p 0.
Proof.
  intros N. destruct (exists_last N) as (q & a & ->). unfold degree, len. rewrite app_length. cbn [length]. rewrite last_last.
  replace (Z.to_nat (Z.of_nat (length q + 1) - 1)) with (length q) by lia. rewrite app_nth2 by lia. rewrite Nat.sub_diag. reflexivity.
Qed.

Lemma coefs_split p : p <> [] -> coefs p (degree p + 1) = coefs p (degree p) ++ [(degree p, last p 0)].
Proof.
  intros N. unfold coefs. assert (D : 0 <= degree p) by (unfold degree, len; destruct p; [congruence|cbn [length]; lia]).
  rewrite zrange_snoc by lia. rewrite map_app. f_equal. cbn [map].
  rewrite nth_last_eq by exact N. reflexivity.
Qed.

Lemma poly_repr_render v p : normal p -> poly_repr v p = render v (degree p, last p 0) (lower p).
Proof.
  intros (N & H). unfold poly_repr. destruct p as [|a [|b p]]; [congruence| |].
  - unfold render, degree, lower, len. cbn [length last fst snd]. cbn. destruct (Z.ltb_spec a 0) as [L|L].
    + rewrite str_neg by exact L. unfold print_term. cbn. rewrite Z.abs_neq, app_nil_r by lia. reflexivity.
    + unfold print_term. cbn. rewrite Z.abs_eq, app_nil_r by lia. reflexivity.
  - set (q := a :: b :: p) in *. assert (Hl : last q 0 <> 0) by (destruct H as [H|H]; [discriminate|exact H]).
    fold (degree q). fold (coefs q (degree q + 1)). change (fun t : Z * Z => negb (snd t =? 0)) with nonzero. rewrite coefs_split by exact N.
    rewrite filter_app, rev_app_distr. cbn [filter].
    replace (nonzero (degree q, last q 0)) with true by (symmetry; apply negb_true_iff, Z.eqb_neq, Hl). cbn [rev app flat_map].
    fold (lower q). rewrite Z.ltb_irrefl. unfold render. cbn [fst snd app]. do 2 f_equal. unfold tail.
    assert (D : forall t, In t (lower q) -> fst t < degree q) by (intros [d c] Ht; apply lower_In in Ht; cbn [fst]; lia).
    revert D. generalize (lower q) as l. induction l as [|[d c] l IH]; intros D; [reflexivity|]. cbn [flat_map]. rewrite IH by (intros t Ht; apply D; right; exact Ht).
    f_equal. unfold signed_term. cbn [fst snd]. specialize (D (d, c) (or_introl eq_refl)). cbn [fst] in D. rewrite (proj2 (Z.ltb_lt _ _) D). reflexivity.
Qed.

Lemma degree_nonneg p : p <> [] -> 0 <= degree p.
Proof. intros N. unfold degree, len. destruct p; [congruence|cbn [length]; lia]. Qed.

Lemma lower_nonneg p u : In u (lower p) -> 0 <= fst u.
Proof. destruct u as [d c]. intros H. apply lower_In in H. cbn [fst]. lia. Qed.

Lemma poly_repr_inj v p q : variable_name v -> normal p -> normal q -> poly_repr v p = poly_repr v q -> p = q.
Proof.
  intros V Np Nq E. rewrite !poly_repr_render in E by assumption. pose proof (proj1 Np) as Ep. pose proof (proj1 Nq) as Eq.
  apply render_inj in E; [|exact V|apply degree_nonneg, Ep|apply degree_nonneg, Eq|intros u; apply lower_nonneg|intros u; apply lower_nonneg].
  destruct E as (E1 & E2). injection E1 as Ed El. assert (L : length p = length q) by (unfold degree, len in Ed; lia).
  apply (nth_ext _ _ 0 0); [exact L|]. intros i Hi. destruct (Nat.eq_dec i (Z.to_nat (degree p))) as [->|Hne].
  - rewrite nth_last_eq by exact Ep. rewrite Ed, nth_last_eq by exact Eq. exact El.
  - assert (Hd : 0 <= Z.of_nat i < degree p) by (unfold degree, len in *; lia).
    assert (X : forall r s, degree r = degree p -> lower r = lower s -> nth i r 0 <> 0 -> nth i s 0 = nth i r 0).
    { intros r s Dr Els Nr. assert (I : In (Z.of_nat i, nth i r 0) (lower r)) by (apply lower_In; rewrite Nat2Z.id; split; [lia|auto]).
      rewrite Els in I. apply lower_In in I as (_ & I & _). rewrite Nat2Z.id in I. auto. }
    destruct (Z.eq_dec (nth i p 0) 0) as [Zp|Zp]; [|symmetry; apply X; auto].
    destruct (Z.eq_dec (nth i q 0) 0) as [Zq|Zq]; [congruence|apply X; auto].
Qed.

Lemma zsum_rev l : zsum (rev l) = zsum l.
Proof. induction l as [|x l IH]; [reflexivity|]. cbn [rev]. rewrite zsum_app, IH. change (zsum (x :: l)) with (x + zsum l). change (zsum [x]) with (x + 0). ring. Qed.

Lemma poly_repr_value v p x : normal p -> formula v x (poly_repr v p) (value p x).
Proof.
  intros N. pose proof (proj1 N) as Ep. rewrite poly_repr_render by exact N.
  assert (E : value p x = tval x (degree p, last p 0) + zsum (map (tval x) (lower p))); [|rewrite E; apply render_value; [apply degree_nonneg, Ep|intros u; apply lower_nonneg]].
  assert (E1 : value p x = zsum (map (tval x) (coefs p (degree p + 1)))).
  { unfold value, coefs. rewrite map_map. f_equal. replace (degree p + 1) with (Z.of_nat (length p)) by (unfold degree, len; lia). apply map_ext_in.
    intros i Hi. apply zrange_In in Hi. unfold coef, tval. cbn [fst snd]. rewrite (proj2 (Z.ltb_ge _ _)) by lia. reflexivity. }
  rewrite E1, coefs_split by exact Ep. rewrite map_app, zsum_app. cbn [map]. change (zsum [?a]) with (a + 0).
  unfold lower. rewrite map_rev, zsum_rev.
  assert (F : forall l, zsum (map (tval x) (filter nonzero l)) = zsum (map (tval x) l)).
  { induction l as [|[d c] l IH]; [reflexivity|]. cbn [filter]. unfold nonzero at 1. cbn [snd map]. change (zsum (tval x (d, c) :: ?m)) with (tval x (d, c) + zsum m).
    destruct (Z.eqb_spec c 0) as [->|C]; cbn [negb].
    - rewrite IH. unfold tval at 2. cbn [fst snd]. ring.
    - cbn [map]. change (zsum (tval x (d, c) :: ?m)) with (tval x (d, c) + zsum m). rewrite IH. reflexivity. }
  rewrite F. ring.
Qed.
