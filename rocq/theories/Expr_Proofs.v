(** * Arithmetic expressions: proofs *)
From Coq Require Import String ZArith List Bool Lia.
From Verif Require Import Base Sums Poly_Spec Poly_Model Poly_Proofs Poly_Proofs2 Poly_Proofs3 Expr_Spec Expr_Model.
Import ListNotations.
Open Scope Z_scope.

(** ** A polynomial is given by its values *)
Lemma value_nil x : value [] x = 0. Proof. reflexivity. Qed.
Lemma value_cons c L x : value (c :: L) x = c + x * value L x.
Proof. rewrite <- !p_call_ok. unfold p_call. cbn [rev]. rewrite fold_left_app. cbn [fold_left]. ring. Qed.
Lemma value_zero L : (forall x, 1 <= x -> value L x = 0) -> forall i, rd L i = 0.
Proof.
  induction L as [|c L IH]; intros H i; [apply rd_nil|].
  assert (c = 0) as ->.
  { pose proof (H (Z.abs c + 1) ltac:(lia)) as E. rewrite value_cons in E. set (v := value L _) in E. assert (v = 0 \/ v <= -1 \/ 1 <= v) as [V|[V|V]] by lia; nia. }
  rewrite rd_cons. destruct (Z.eqb_spec i 0); [reflexivity|]. apply IH. intros x Hx. pose proof (H x Hx) as E. rewrite value_cons in E. nia.
Qed.
Lemma value_differ L x : value L x <> 0 -> exists i, rd L i <> 0.
Proof.
  induction L as [|c L IH]; intros H; [rewrite value_nil in H; lia|]. rewrite value_cons in H. destruct (Z.eq_dec c 0) as [->|Hc].
  - destruct IH as (i & Hi); [nia|]. destruct (Z.ltb_spec i 0); [rewrite rd_neg in Hi by assumption; contradiction|]. exists (i + 1). rewrite rd_cons. destruct (Z.eqb_spec (i + 1) 0); [lia|]. replace (i + 1 - 1) with i by lia. exact Hi.
  - exists 0. rewrite rd_cons. exact Hc.
Qed.
Lemma value_eq p q : normal p -> normal q -> (forall x, value p x = value q x) -> p = q.
Proof.
  intros Np Nq H. apply normal_ext; [exact Np|exact Nq|]. intros i. destruct (p_sub_ok p q) as (s & _ & _ & R). assert (Z0 : forall j, rd s j = 0); [|specialize (R i); specialize (Z0 i); lia].
  apply value_zero. intros x _. rewrite (value_sub p q s x R), H. lia.
Qed.

(** ** Values of expressions *)
Definition good (v : pyval) (f : Z -> Z) (o : option (kind * string)) : Prop :=
  match v with
  | VInt z => o = None /\ forall x, f x = z
  | VPoly cls p n => o = Some (cls, n) /\ normal p /\ forall x, value p x = f x
  end.
Definition first_of (o o' : option (kind * string)) := match o with Some c => Some c | None => o' end.

Lemma good_add u v f g o o' : good u f o -> good v g o' -> exists w, op_add u v = Ret w /\ good w (fun x => f x + g x) (first_of o o').
Proof.
  destruct u as [a|cl p n], v as [b|cl' q n']; cbn [good]; intros (O & F) (O' & G); subst o o'.
  - eexists. split; [reflexivity|]. split; [reflexivity|]. intros x. rewrite F, G. reflexivity.
  - destruct (p_add_ok q (Num a)) as (s & E & N & R). cbn [op_add]. rewrite E. eexists. split; [reflexivity|]. split; [reflexivity|]. split; [exact N|]. intros x. rewrite (value_add q [a] s x R), value_one_term, F, (proj2 G). lia.
  - destruct (p_add_ok p (Num b)) as (s & E & N & R). cbn [op_add]. rewrite E. eexists. split; [reflexivity|]. split; [reflexivity|]. split; [exact N|]. intros x. rewrite (value_add p [b] s x R), value_one_term, G, (proj2 F). lia.
  - destruct (p_add_ok p (Poly q)) as (s & E & N & R). cbn [op_add]. rewrite E. eexists. split; [reflexivity|]. split; [reflexivity|]. split; [exact N|]. intros x. rewrite (value_add p q s x R), (proj2 F), (proj2 G). lia.
Qed.
Lemma value_neg p x : value (p_neg p) x = - value p x.
Proof. rewrite (value_scale (-1) p (p_neg p)); [lia|]. intros i. rewrite (proj2 (p_neg_ok p)). lia. Qed.
Lemma good_neg u f o : good u f o -> exists w, op_neg u = Ret w /\ good w (fun x => - f x) o.
Proof.
  destruct u as [a|cl p n]; cbn [good]; intros (O & F); subst o; (eexists; split; [reflexivity|]).
  - split; [reflexivity|]. intros x. rewrite F. reflexivity.
  - split; [reflexivity|]. split; [apply p_neg_ok|]. intros x. rewrite value_neg, (proj2 F). reflexivity.
Qed.
Lemma good_sub u v f g o o' : good u f o -> good v g o' -> (o <> None -> o' <> None) -> exists w, op_sub u v = Ret w /\ good w (fun x => f x - g x) (first_of o o').
Proof.
  destruct u as [a|cl p n], v as [b|cl' q n']; cbn [good]; intros (O & F) (O' & G) X; subst o o'.
  - eexists. split; [reflexivity|]. split; [reflexivity|]. intros x. rewrite F, G. reflexivity.
  - destruct (p_add_ok (p_neg q) (Num a)) as (s & E & N & R). cbn [op_sub]. unfold p_rsub. rewrite E. eexists. split; [reflexivity|]. split; [reflexivity|]. split; [exact N|]. intros x. rewrite (value_add (p_neg q) [a] s x R), value_one_term, value_neg, F, (proj2 G). lia.
  - exfalso. apply X; [discriminate|reflexivity].
  - destruct (p_sub_ok p q) as (s & E & N & R). cbn [op_sub]. rewrite E. eexists. split; [reflexivity|]. split; [reflexivity|]. split; [exact N|]. intros x. rewrite (value_sub p q s x R), (proj2 F), (proj2 G). lia.
Qed.
Lemma good_sub_number u b f o : good u f o -> o <> None -> exists w, op_sub u (VInt b) = Ret w /\ good w (fun x => f x + b) o.
Proof.
  destruct u as [a|cl p n]; cbn [good]; intros (O & F) X; subst o; [contradiction|].
  cbn [op_sub p_sub]. destruct (p_add_ok p (Poly [b])) as (s & E & N & R). rewrite E. eexists. split; [reflexivity|]. split; [reflexivity|]. split; [exact N|]. intros x. rewrite (value_add p [b] s x R), value_one_term, (proj2 F). lia.
Qed.
Lemma good_mul u v f g o o' : good u f o -> good v g o' -> exists w, op_mul u v = Ret w /\ good w (fun x => f x * g x) (first_of o o').
Proof.
  destruct u as [a|cl p n], v as [b|cl' q n']; cbn [good]; intros (O & F) (O' & G); subst o o'.
  - eexists. split; [reflexivity|]. split; [reflexivity|]. intros x. rewrite F, G. reflexivity.
  - destruct (p_mul_num_ok q a) as (s & E & N & R). cbn [op_mul]. unfold poly_rmul, poly_mul. rewrite E. eexists. split; [reflexivity|]. split; [reflexivity|]. split; [exact N|]. intros x. rewrite (value_scale a q s x R), F, (proj2 G). lia.
  - destruct (p_mul_num_ok p b) as (s & E & N & R). cbn [op_mul]. unfold poly_mul. rewrite E. eexists. split; [reflexivity|]. split; [reflexivity|]. split; [exact N|]. intros x. rewrite (value_scale b p s x R), G, (proj2 F). lia.
  - destruct (p_mul_ok p q) as (s & E & N & R). cbn [op_mul]. unfold poly_mul. rewrite E. eexists. split; [reflexivity|]. split; [reflexivity|]. split; [exact N|]. intros x. rewrite (value_mul p q s x R), (proj2 F), (proj2 G). lia.
Qed.
Lemma good_pow u f o k : good u f o -> 0 <= k -> (o <> None -> exists x, f x <> 0) -> exists w, op_pow u k = Ret w /\ good w (fun x => f x ^ k) o.
Proof.
  destruct u as [a|cl p n]; cbn [good]; intros (O & F) Hk X; subst o; cbn [op_pow].
  - unfold int_pow. destruct (Z.leb_spec 0 k); [|lia]. eexists. split; [reflexivity|]. split; [reflexivity|]. intros x. rewrite F. reflexivity.
  - destruct X as (x0 & X); [discriminate|]. rewrite <- (proj2 F) in X. destruct (p_pow_ok p k (value_differ p x0 X) Hk) as (s & E & N & R). rewrite E. eexists. split; [reflexivity|]. split; [reflexivity|]. split; [exact N|].
    intros x. rewrite (value_pow p (Z.to_nat k) s x R), Z2Nat.id, (proj2 F) by exact Hk. reflexivity.
Qed.
Lemma zero_pow u f o k : good u f o -> o <> None -> (forall x, f x = 0) -> op_pow u k = Raise IndexError.
Proof.
  destruct u as [a|cl p n]; cbn [good]; intros (O & F) X H; subst o; [contradiction|]. cbn [op_pow]. unfold p_pow, power_jcp.
  destruct (first_nonzero_ok p) as [(_ & E)|(s & _ & _ & N & _)]; [rewrite E; reflexivity|]. exfalso. apply N, value_zero. intros x _. rewrite (proj2 F). apply H.
Qed.

Lemma evaluate_ok e : allowed e -> exists v, evaluate e = Ret v /\ good v (meaning e) (first_polynomial e).
Proof.
  induction e as [c|cl L n|a IH|a IHa b IHb|a IHa b IHb|a IHa b IHb|a IH k]; cbn [allowed evaluate].
  - intros _. eexists. split; [reflexivity|]. split; [reflexivity|]. reflexivity.
  - intros _. eexists. split; [reflexivity|]. split; [reflexivity|]. destruct (polynomial_ok L) as (N & R). split; [exact N|]. intros x. apply value_ext, R.
  - intros A. destruct (IH A) as (u & -> & G). exact (good_neg _ _ _ G).
  - intros (A & B). destruct (IHa A) as (u & -> & G). destruct (IHb B) as (v & -> & G'). exact (good_add _ _ _ _ _ _ G G').
  - intros (A & B & X). destruct (IHa A) as (u & -> & G). destruct (IHb B) as (v & -> & G'). exact (good_sub _ _ _ _ _ _ G G' X).
  - intros (A & B). destruct (IHa A) as (u & -> & G). destruct (IHb B) as (v & -> & G'). exact (good_mul _ _ _ _ _ _ G G').
  - intros (A & Hk & X). destruct (IH A) as (u & -> & G). exact (good_pow _ _ _ _ G Hk X).
Qed.

(** ** Comparison *)
Lemma eq_ok u v f g o o' : good u f o -> good v g o' -> (op_eq u v = true <-> forall x, f x = g x).
Proof.
  destruct u as [a|cl p n], v as [b|cl' q n']; cbn [good op_eq p_eq]; intros (O & F) (O' & G).
  - rewrite Z.eqb_eq. split; [intros -> x; rewrite F, G; reflexivity|]. intros H. specialize (H 0). rewrite F, G in H. exact H.
  - rewrite list_eqb_spec. split.
    + intros <- x. rewrite F, <- (proj2 G), value_one_term. reflexivity.
    + intros H. apply value_eq; [apply normal_one|apply G|]. intros x. rewrite value_one_term, (proj2 G), <- H, F. reflexivity.
  - rewrite list_eqb_spec. split.
    + intros <- x. rewrite G, <- (proj2 F), value_one_term. reflexivity.
    + intros H. apply value_eq; [apply normal_one|apply F|]. intros x. rewrite value_one_term, (proj2 F), H, G. reflexivity.
  - rewrite list_eqb_spec. split.
    + intros <- x. rewrite <- (proj2 F), <- (proj2 G). reflexivity.
    + intros H. apply value_eq; [apply F|apply G|]. intros x. rewrite (proj2 F), (proj2 G). apply H.
Qed.
Lemma ne_ok u v : op_ne u v = negb (op_eq u v).
Proof. destruct u, v; reflexivity. Qed.

(** ** Products with a number *)
Lemma conv_number f c i : (forall j, j < 0 -> f j = 0) -> conv f (coef [c]) i = c * f i.
Proof.
  intros H. rewrite conv_comm. rewrite (conv_finite (coef [c]) f 1 i); [|lia|intros; rewrite coef_rd; apply rd_top; unfold zlen; cbn [length]; lia|exact H].
  rewrite (Sum_one 0), coef_rd, rd_cons. cbn [Z.eqb]. rewrite Z.sub_0_r. reflexivity.
Qed.
