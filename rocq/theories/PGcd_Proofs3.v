(** * Proofs: the results of gcd *)
From Coq Require Import ZArith List Bool Lia Znumtheory.
From Verif Require Import Base Py Sums NT Core_Model Core_Proofs Poly_Spec Poly_Model Poly_Proofs Poly_Proofs2 Poly_Proofs3 Poly_Proofs4 PGcd_Spec PGcd_Model PGcd_Proofs PGcd_Proofs2.
Import ListNotations.
Open Scope Z_scope.

Section Float.
  Context (overflow : Z -> bool) (float_rounds : list Z -> list Z -> list Z -> outcome unit).
  Notation gcd_loop := (gcd_loop overflow float_rounds).
  Notation p_gcd := (p_gcd overflow float_rounds).

  Lemma p_eq_zero r : normal r -> p_eq r (Num 0) = true <-> r = [0].
  Proof using. intros _. unfold p_eq. rewrite list_eqb_spec. split; congruence. Qed.

  Lemma later_rounds : forall fuel d dd u v g h w, gcd_loop fuel false d dd u v g h = Ret w -> w = [d].
  Proof using.
    induction fuel as [|fuel IH]; intros d dd u v g h w; cbn [PGcd_Model.gcd_loop]; [discriminate|]. destruct (pseudo_quo_rem u v) as [(q & r)| |]; cbn [bind]; try discriminate.
    destruct (p_eq r (Num 0)); [discriminate|]. destruct (len r - 1 =? 0); [intros E; injection E as <-; reflexivity|]. destruct h as [h|].
    - destruct (mapM _ r) as [l| |]; cbn [bind]; try discriminate. destruct (next_h overflow dd (last v 0) h) as [h'| |]; cbn [bind]; try discriminate. apply IH.
    - destruct (float_rounds u v r); cbn [bind]; try discriminate. intros E. injection E as <-. reflexivity.
  Qed.

  (** The first round. *)
  Lemma first_round f d dd u v r q : pseudo_quo_rem u v = Ret (q, r) -> normal r -> normal v -> prim v -> ((length v = 1)%nat \/ 0 < last v 0) ->
    gcd_loop (S f) true d dd u v 1 (Some 1) =
      if p_eq r (Num 0) then p_mul v (Num d)
      else if zlen r =? 1 then Ret [d]
      else if 0 <=? dd then do h <- next_h overflow dd (last v 0) 1; gcd_loop f false d dd v r (last v 0) h else gcd_loop (S f) true d dd u v 1 (Some 1).
  Proof using.
    intros E Nr Nv P L. destruct (Z.leb_spec 0 dd) as [D|D].
    - cbn [PGcd_Model.gcd_loop]. rewrite E. cbn [bind]. destruct (p_eq r (Num 0)); [rewrite primitive_part_again by assumption; reflexivity|]. change (len r) with (zlen r).
      replace (zlen r - 1 =? 0) with (zlen r =? 1) by (destruct (Z.eqb_spec (zlen r) 1), (Z.eqb_spec (zlen r - 1) 0); lia || reflexivity). destruct (zlen r =? 1); [reflexivity|].
      rewrite Z.pow_1_l by exact D. rewrite (mapM_ret _ (fun a => a)) by (intros a _; unfold pydiv; cbn; rewrite Z.div_1_r; reflexivity). cbn [bind]. rewrite map_id, normal_polynomial by exact Nr. reflexivity.
    - destruct (p_eq r (Num 0)) eqn:Er; [|destruct (zlen r =? 1) eqn:El; [|reflexivity]]; cbn [PGcd_Model.gcd_loop]; rewrite E; cbn [bind]; rewrite Er; [rewrite primitive_part_again by assumption; reflexivity|].
      change (len r) with (zlen r). replace (zlen r - 1 =? 0) with true by (symmetry; apply Z.eqb_eq; apply Z.eqb_eq in El; lia). reflexivity.
  Qed.

  (** The run of gcd on polynomials other than 0, the first of degree at least that of the second. *)
  Record setting (a b : list Z) (d : Z) (u v : list Z) (ca cb : Z) (q r : list Z) : Prop := {
    s_d : d = Z.gcd ca cb; s_ca : ca <> 0; s_cb : cb <> 0;
    s_nu : normal u; s_nv : normal v; s_pu : prim u; s_pv : prim v; s_lu : zlen u = zlen a; s_lv : zlen v = zlen b;
    s_ru : forall i, rd a i = ca * rd u i; s_rv : forall i, rd b i = cb * rd v i;
    s_q : pseudo_quo_rem u v = Ret (q, r); s_r : remainder u v r;
    s_pp : primitive_part b = Ret v;
    s_lead : (length v = 1)%nat \/ 0 < last v 0 }.

  Lemma p_gcd_run a b : normal a -> nonzero a -> normal b -> nonzero b -> zlen b <= zlen a -> exists d u v ca cb q r, setting a b d u v ca cb q r /\
    let R := gcd_loop (S (length v)) true d (zlen u - zlen v) u v 1 (Some 1) in p_gcd a b = R /\ (zlen b < zlen a -> p_gcd b a = R).
  Proof using.
    intros Na Za Nb Zb L. destruct (primitive_part_ok a Na Za) as (c1 & ca & u & E1 & C1 & A1 & Ca & U & Nu & Pu & Lu & Ru & _).
    destruct (primitive_part_ok b Nb Zb) as (c2 & cb & v & E2 & C2 & A2 & Cb & V & Nv & Pv & Lv & Rv & Ld & _).
    destruct (pqr_remainder u v (proj1 Nu) Nv (prim_nonzero v Pv) ltac:(lia)) as (q & r & Q & Rr).
    assert (G : Z.gcd ca cb = Z.gcd c1 c2). { destruct C1 as [->| ->], C2 as [->| ->]; rewrite ?Z.gcd_opp_l, ?Z.gcd_opp_r; reflexivity. }
    exists (Z.gcd c1 c2), u, v, ca, cb, q, r. split; [constructor; auto|]. cbv zeta.
    assert (Run : forall again, gcd_once overflow float_rounds again a b = gcd_loop (S (length v)) true (Z.gcd c1 c2) (zlen u - zlen v) u v 1 (Some 1)).
    { intros again. unfold gcd_once, content. rewrite E1, E2. cbn [bind]. rewrite gcd_correct. cbn [bind]. rewrite U, V. cbn [bind]. change (len u) with (zlen u). change (len v) with (zlen v). destruct (Z.ltb_spec (zlen u - zlen v) 0); [lia|reflexivity]. }
    split; [apply Run|]. intros L'. unfold PGcd_Model.p_gcd. unfold gcd_once at 1, content. rewrite E1, E2. cbn [bind]. rewrite gcd_correct. cbn [bind]. rewrite U, V. cbn [bind]. change (len u) with (zlen u). change (len v) with (zlen v).
    destruct (Z.ltb_spec (zlen v - zlen u) 0); [apply Run|lia].
  Qed.

  Lemma one_scaled d i : rd [d] i = d * rd [1] i.
  Proof using. rewrite !rd_cons. destruct (i =? 0); [ring|rewrite rd_nil; ring]. Qed.

  (** A zero remainder in the first round, and a constant one: the results. *)
  Lemma result_multiple a b d u v ca cb q r : setting a b d u v ca cb q r -> r = [0] -> exists w, p_mul v (Num d) = Ret w /\ is_pgcd w a b /\ zlen w = zlen b.
  Proof using.
    clear overflow float_rounds. intros [] ->. destruct (p_mul_num_ok v d) as (w & E & Nw & R). exists w. split; [exact E|]. split.
    - apply (pgcd_scale a b u v v w ca cb); auto; [apply pgcd_self, remainder_zero; assumption|]. intros i. rewrite R, s_d0. reflexivity.
    - unfold p_mul in E. injection E as <-. rewrite normal_polynomial; [rewrite zlen_map; exact s_lv0|]. assert (d <> 0) by (rewrite s_d0; intros X; apply Z.gcd_eq_0_l in X; congruence). split; [intros X; apply map_eq_nil in X; apply (proj1 s_nv0 X)|].
      rewrite map_length. destruct (proj2 s_nv0) as [X|X]; [left; exact X|right]. rewrite last_rd by (intros Y; apply map_eq_nil in Y; apply (proj1 s_nv0 Y)). rewrite zlen_map, rd_map by ring. rewrite last_rd in X by apply s_nv0. intros Y. apply Z.mul_eq_0 in Y. tauto.
  Qed.
  Lemma result_constant a b d u v ca cb q r : setting a b d u v ca cb q r -> (forall w, pdivides w u -> pdivides w v -> constant w) -> is_pgcd [d] a b.
  Proof using. clear overflow float_rounds. intros [] H. apply (pgcd_scale a b u v [1] [d] ca cb); auto; [apply coprime_pgcd; assumption|]. intros i. rewrite one_scaled, s_d0. reflexivity. Qed.
  Lemma constant_divides a b d u v ca cb q r : setting a b d u v ca cb q r -> pdivides [d] a /\ pdivides [d] b.
  Proof using.
    clear overflow float_rounds. intros []. assert (One : forall p c x, (forall i, rd p i = c * rd x i) -> (d | c) -> pdivides [d] p).
    { intros p c x R (e & ->). exists (map (Z.mul e) x). intros i. rewrite coef_rd, R. rewrite (conv_ext (coef [d]) (fun j => d * unit_series j) (coef (map (Z.mul e) x)) (rd (map (Z.mul e) x))).
      - rewrite conv_mul_l, conv_one_l by (intros; apply rd_neg; assumption). rewrite rd_map by ring. ring.
      - intros j Hj. rewrite coef_rd, rd_cons. unfold unit_series. destruct (j =? 0); [ring|rewrite rd_nil; ring].
      - reflexivity. }
    split; [apply (One a ca u)|apply (One b cb v)]; auto; rewrite s_d0; [apply Z.gcd_divide_l|apply Z.gcd_divide_r].
  Qed.
  Lemma common_divisors a b d u v ca cb q r : setting a b d u v ca cb q r -> (forall w, pdivides w u -> pdivides w a) /\ (forall w, pdivides w v -> pdivides w b).
  Proof using. clear overflow float_rounds. intros []. split; intros w; [apply (pdivides_scale w u a ca)|apply (pdivides_scale w v b cb)]; assumption. Qed.

  Lemma run_sound a b w : normal a -> nonzero a -> normal b -> nonzero b -> zlen b <= zlen a -> forall x y, (x = a /\ y = b \/ x = b /\ y = a /\ zlen b < zlen a) -> p_gcd x y = Ret w ->
    pdivides w a /\ pdivides w b /\ (~ constant w \/ (forall t, pdivides t a -> pdivides t b -> constant t) -> is_pgcd w a b).
  Proof using.
    intros Na Za Nb Zb L x y XY E. destruct (p_gcd_run a b Na Za Nb Zb L) as (d & u & v & ca & cb & q & r & St & R1 & R2). cbv zeta in *.
    assert (Run : gcd_loop (S (length v)) true d (zlen u - zlen v) u v 1 (Some 1) = Ret w) by (destruct XY as [(-> & ->)|(-> & -> & L')]; [rewrite <- R1; exact E|rewrite <- (R2 L'); exact E]). clear E R1 R2.
    pose proof (constant_divides _ _ _ _ _ _ _ _ _ St) as (Da & Db). pose proof (common_divisors _ _ _ _ _ _ _ _ _ St) as (Ta & Tb).
    assert (Cst : w = [d] -> pdivides w a /\ pdivides w b /\ (~ constant w \/ (forall t, pdivides t a -> pdivides t b -> constant t) -> is_pgcd w a b)).
    { intros ->. split; [exact Da|]. split; [exact Db|]. intros [N|H]; [destruct N; intros i Hi; rewrite coef_rd, rd_cons; destruct (Z.eqb_spec i 0); [lia|apply rd_nil]|]. apply (result_constant _ _ _ _ _ _ _ _ _ St). intros t X Y. apply H; [apply Ta, X|apply Tb, Y]. }
    rewrite (first_round _ _ _ u v r q (s_q _ _ _ _ _ _ _ _ _ St) (proj1 (s_r _ _ _ _ _ _ _ _ _ St)) (s_nv _ _ _ _ _ _ _ _ _ St) (s_pv _ _ _ _ _ _ _ _ _ St) (s_lead _ _ _ _ _ _ _ _ _ St)) in Run.
    destruct (p_eq r (Num 0)) eqn:Er.
    - apply p_eq_zero in Er; [|apply (s_r _ _ _ _ _ _ _ _ _ St)]. destruct (result_multiple _ _ _ _ _ _ _ _ _ St Er) as (w' & E' & G & _). rewrite E' in Run. injection Run as ->. split; [apply G|]. split; [apply G|]. intros _. exact G.
    - destruct (zlen r =? 1); [injection Run as <-; apply Cst; reflexivity|]. rewrite (s_lu _ _ _ _ _ _ _ _ _ St), (s_lv _ _ _ _ _ _ _ _ _ St) in Run. destruct (Z.leb_spec 0 (zlen a - zlen b)); [|lia].
      destruct (next_h overflow (zlen a - zlen b) (last v 0) 1) as [h| |]; cbn [bind] in Run; try discriminate. apply later_rounds in Run. apply Cst. exact Run.
  Qed.

  (** The lower-degree polynomial divides a multiple of the other one. *)
  Lemma run_multiple a b c z : normal a -> nonzero a -> normal b -> nonzero b -> zlen b <= zlen a -> c <> 0 -> (forall i, rd z i = c * rd a i) -> pdivides b z ->
    exists w, p_gcd a b = Ret w /\ (zlen b < zlen a -> p_gcd b a = Ret w) /\ is_pgcd w a b /\ zlen w = zlen b.
  Proof using.
    intros Na Za Nb Zb L C Rz D. destruct (p_gcd_run a b Na Za Nb Zb L) as (d & u & v & ca & cb & q & r & St & R1 & R2). cbv zeta in *. 
    assert (Dv : pdivides v u). { apply (prim_divides v u (c * ca) z); [apply (s_pv _ _ _ _ _ _ _ _ _ St)|pose proof (s_ca _ _ _ _ _ _ _ _ _ St); apply Z.neq_mul_0; split; assumption|intros i; rewrite Rz, (s_ru _ _ _ _ _ _ _ _ _ St); ring|].
      eapply pdivides_trans; [|exact D]. apply (common_divisors _ _ _ _ _ _ _ _ _ St). apply pdivides_refl. }
    pose proof (remainder_multiple u v r (prim_nonzero v (s_pv _ _ _ _ _ _ _ _ _ St)) (s_nv _ _ _ _ _ _ _ _ _ St) (s_r _ _ _ _ _ _ _ _ _ St) Dv) as Er.
    destruct (result_multiple _ _ _ _ _ _ _ _ _ St Er) as (w & E' & G & Lw). exists w.
    rewrite (first_round _ _ _ u v r q (s_q _ _ _ _ _ _ _ _ _ St) (proj1 (s_r _ _ _ _ _ _ _ _ _ St)) (s_nv _ _ _ _ _ _ _ _ _ St) (s_pv _ _ _ _ _ _ _ _ _ St) (s_lead _ _ _ _ _ _ _ _ _ St)) in R1, R2.
    apply p_eq_zero in Er; [|apply (s_r _ _ _ _ _ _ _ _ _ St)]. rewrite Er, E' in R1, R2. auto.
  Qed.

  (** The lower degree is at most two. *)
  Definition small_result (a b : list Z) (R : outcome (list Z)) : Prop :=
    (exists w, R = Ret w /\ is_pgcd w a b) \/
    zlen b = 3 /\ R = Raise AttributeError /\ (exists w, ~ constant w /\ pdivides w a /\ pdivides w b) \/
    zlen b = 3 /\ zlen a = 4 /\ R = Raise OverflowError /\ exists v, primitive_part b = Ret v /\ overflow (last v 0) = true.

  Lemma run_small a b : normal a -> nonzero a -> normal b -> nonzero b -> zlen b <= zlen a -> zlen b <= 3 ->
    small_result a b (p_gcd a b) /\ (zlen b < zlen a -> small_result a b (p_gcd b a)).
  Proof using.
    intros Na Za Nb Zb L L3. destruct (p_gcd_run a b Na Za Nb Zb L) as (d & u & v & ca & cb & q & r & St & R1 & R2). cbv zeta in *.
    enough (small_result a b (gcd_loop (S (length v)) true d (zlen u - zlen v) u v 1 (Some 1))) as H by (rewrite R1; split; [exact H|intros X; rewrite (R2 X); exact H]). clear R1 R2.
    rewrite (first_round _ _ _ u v r q (s_q _ _ _ _ _ _ _ _ _ St) (proj1 (s_r _ _ _ _ _ _ _ _ _ St)) (s_nv _ _ _ _ _ _ _ _ _ St) (s_pv _ _ _ _ _ _ _ _ _ St) (s_lead _ _ _ _ _ _ _ _ _ St)).
    pose proof (s_r _ _ _ _ _ _ _ _ _ St) as Rr. pose proof (s_lu _ _ _ _ _ _ _ _ _ St) as Lu. pose proof (s_lv _ _ _ _ _ _ _ _ _ St) as Lv. pose proof (s_pv _ _ _ _ _ _ _ _ _ St) as Pv. pose proof (s_nv _ _ _ _ _ _ _ _ _ St) as Nv.
    destruct (p_eq r (Num 0)) eqn:Er.
    { apply p_eq_zero in Er; [|apply Rr]. destruct (result_multiple _ _ _ _ _ _ _ _ _ St Er) as (w & E & G & _). left. exists w. auto. }
    assert (Zr : nonzero r). { destruct (zero_list r (proj1 Rr)) as [X|X]; [apply p_eq_zero in X; [congruence|apply Rr]|exact X]. }
    destruct (Z.eqb_spec (zlen r) 1) as [E1|E1]; [left; exists [d]; split; [reflexivity|]; apply (result_constant _ _ _ _ _ _ _ _ _ St); apply (remainder_constant u v r); assumption|].
    pose proof (normal_short r (zlen v - 1) (proj1 Rr) (proj1 (proj2 Rr))). pose proof (normal_zlen r (proj1 Rr)). assert (Lb : zlen b = 3) by lia. assert (Lr : zlen r = 2) by lia.
    destruct (Z.leb_spec 0 (zlen u - zlen v)); [|lia]. assert (Ln : last v 0 <> 0) by (rewrite last_rd by apply Nv; apply normal_lead; [exact Nv|apply prim_nonzero; exact Pv]).
    assert (Nx : (exists h, next_h overflow (zlen u - zlen v) (last v 0) 1 = Ret h) \/ (zlen a = 4 /\ overflow (last v 0) = true /\ next_h overflow (zlen u - zlen v) (last v 0) 1 = Raise OverflowError)).
    { unfold next_h. destruct (Z.ltb_spec 1 (zlen u - zlen v)); [left; rewrite Z.pow_1_l by lia; eexists; reflexivity|]. destruct (Z.eqb_spec (zlen u - zlen v) 0); [left; eexists; reflexivity|]. destruct (Z.eqb_spec (last v 0) 0); [congruence|].
      destruct (overflow (last v 0)); [right; split; [lia|auto]|left; eexists; reflexivity]. }
    destruct Nx as [(h & ->)|(La & Ov & ->)]; cbn [bind].
    2: { right. right. split; [exact Lb|]. split; [exact La|]. split; [reflexivity|]. exists v. split; [|exact Ov]. apply (s_pp _ _ _ _ _ _ _ _ _ St). }
    assert (Len : (length v = 3)%nat) by (unfold zlen in Lv, Lb; lia). rewrite Len. cbn [PGcd_Model.gcd_loop].
    destruct (pqr_remainder v r (proj1 Nv) (proj1 Rr) Zr ltac:(lia)) as (q2 & r2 & -> & Rr2). cbn [bind].
    destruct (p_eq r2 (Num 0)) eqn:Er2.
    - right. left. split; [exact Lb|]. split; [reflexivity|]. apply p_eq_zero in Er2; [|apply Rr2]. subst r2. destruct (decompose r (zg r) Zr) as (Dr & Pr); [apply Z.abs_eq, zg_nonneg|]. set (r' := map (fun x => x / zg r) r) in *.
      assert (Drr : pdivides r' r) by (apply (pdivides_scale r' r' r (zg r)); [exact Dr|apply pdivides_refl]).
      assert (Dv : pdivides r' v). { destruct Rr2 as (_ & _ & c & q' & C & R). apply (prim_divides r' v c (map (Z.mul c) v) Pr C); [intros i; apply rd_map; ring|]. apply (pdivides_mul r' q' r); [|exact Drr]. intros i. rewrite rd_map by ring. rewrite R.
        rewrite (rd_cons 0). destruct (i =? 0); [|rewrite rd_nil]; ring. }
      exists r'. split; [|split; apply (common_divisors _ _ _ _ _ _ _ _ _ St); [|exact Dv]].
      + intros X. specialize (X 1 ltac:(lia)). rewrite coef_rd in X. apply (normal_lead r (proj1 Rr) Zr). rewrite Lr. change (2 - 1) with 1. rewrite Dr, X. ring.
      + destruct Rr as (_ & _ & c & q' & C & R). apply (prim_divides r' u c (map (Z.mul c) u) Pr C); [intros i; apply rd_map; ring|]. destruct (p_mul_ok q' v) as (qv & _ & _ & Qv).
        assert (X : pdivides r' qv) by (apply (pdivides_mul r' q' v); assumption). apply (pdivides_sub r' r (map Z.opp qv)); [intros i; rewrite !rd_map by ring; rewrite R, Qv; ring|exact Drr|].
        apply (pdivides_scale r' qv _ (-1)); [intros i; rewrite rd_map by ring; ring|exact X].
    - assert (Zr2 : nonzero r2). { destruct (zero_list r2 (proj1 Rr2)) as [X|X]; [apply p_eq_zero in X; [congruence|apply Rr2]|exact X]. }
      pose proof (normal_short r2 (zlen r - 1) (proj1 Rr2) (proj1 (proj2 Rr2))). pose proof (normal_zlen r2 (proj1 Rr2)). change (len r2) with (zlen r2). destruct (Z.eqb_spec (zlen r2 - 1) 0); [|lia].
      left. exists [d]. split; [reflexivity|]. apply (result_constant _ _ _ _ _ _ _ _ _ St). intros w Wu Wv. apply (remainder_constant v r r2 Rr2 Zr2 ltac:(lia) w Wv). apply (remainder_divides u v r w Rr Wu Wv).
  Qed.

  (** No result if the lower degree is two and the greatest common divisor has degree one. *)
  Lemma run_error a b : normal a -> nonzero a -> normal b -> nonzero b -> zlen b <= zlen a -> zlen b = 3 -> (exists w, ~ constant w /\ pdivides w a /\ pdivides w b) ->
    (forall c z, c <> 0 -> (forall i, rd z i = c * rd a i) -> ~ pdivides b z) -> forall w, p_gcd a b <> Ret w /\ (zlen b < zlen a -> p_gcd b a <> Ret w).
  Proof using.
    intros Na Za Nb Zb L L3 (t & Nt & Ta & Tb) ND w. destruct (p_gcd_run a b Na Za Nb Zb L) as (d & u & v & ca & cb & q & r & St & R1 & R2). cbv zeta in *.
    enough (gcd_loop (S (length v)) true d (zlen u - zlen v) u v 1 (Some 1) <> Ret w) as H by (rewrite R1; split; [exact H|intros X; rewrite (R2 X); exact H]). clear R1 R2.
    pose proof (s_r _ _ _ _ _ _ _ _ _ St) as Rr. pose proof (s_lu _ _ _ _ _ _ _ _ _ St) as Lu. pose proof (s_lv _ _ _ _ _ _ _ _ _ St) as Lv. pose proof (s_pv _ _ _ _ _ _ _ _ _ St) as Pv. pose proof (s_nv _ _ _ _ _ _ _ _ _ St) as Nv.
    pose proof (s_ca _ _ _ _ _ _ _ _ _ St) as Ca. pose proof (s_cb _ _ _ _ _ _ _ _ _ St) as Cb. pose proof (s_ru _ _ _ _ _ _ _ _ _ St) as Ru. pose proof (s_rv _ _ _ _ _ _ _ _ _ St) as Rv.
    assert (Nzt : nonzero t) by (apply (pdivides_nonzero t a Ta Za)). destruct (decompose t (zg t) Nzt) as (Dt & Pt); [apply Z.abs_eq, zg_nonneg|]. set (t' := map (fun x => x / zg t) t) in *.
    assert (Dtt : pdivides t' t) by (apply (pdivides_scale t' t' t (zg t)); [exact Dt|apply pdivides_refl]).
    assert (Tu : pdivides t' u) by (apply (prim_divides t' u ca a Pt Ca Ru); apply (pdivides_trans _ t); assumption). assert (Tv : pdivides t' v) by (apply (prim_divides t' v cb b Pt Cb Rv); apply (pdivides_trans _ t); assumption).
    assert (Nt' : ~ constant t') by (intros X; apply Nt; intros i Hi; specialize (X i Hi); rewrite coef_rd in *; rewrite Dt, X; ring).
    rewrite (first_round _ _ _ u v r q (s_q _ _ _ _ _ _ _ _ _ St) (proj1 Rr) Nv Pv (s_lead _ _ _ _ _ _ _ _ _ St)).
    destruct (p_eq r (Num 0)) eqn:Er.
    { apply p_eq_zero in Er; [|apply Rr]. exfalso. subst r. pose proof (remainder_zero u v Pv Rr) as D. apply (ND cb (map (Z.mul cb) a) Cb); [intros i; apply rd_map; ring|].
      destruct D as (s & S). exists (map (Z.mul ca) s). intros i. rewrite coef_rd, rd_map by ring. rewrite Ru. change (rd u i) with (coef u i). rewrite S. rewrite (conv_ext (coef b) (fun j => cb * rd v j) (coef (map (Z.mul ca) s)) (fun j => ca * rd s j)) by (intros; rewrite coef_rd; first [apply Rv|apply rd_map; ring]).
      rewrite conv_mul_l, conv_mul_r. reflexivity. }
    assert (Zr : nonzero r). { destruct (zero_list r (proj1 Rr)) as [X|X]; [apply p_eq_zero in X; [congruence|apply Rr]|exact X]. }
    destruct (Z.eqb_spec (zlen r) 1) as [E1|E1]; [exfalso; apply Nt'; apply (remainder_constant u v r Rr Zr E1 t' Tu Tv)|].
    pose proof (normal_short r (zlen v - 1) (proj1 Rr) (proj1 (proj2 Rr))). pose proof (normal_zlen r (proj1 Rr)). assert (Lr : zlen r = 2) by lia.
    destruct (Z.leb_spec 0 (zlen u - zlen v)); [|lia]. destruct (next_h overflow (zlen u - zlen v) (last v 0) 1) as [h| |]; cbn [bind]; try discriminate.
    assert (Len : (length v = 3)%nat) by (unfold zlen in Lv, L3; lia). rewrite Len. cbn [PGcd_Model.gcd_loop].
    destruct (pqr_remainder v r (proj1 Nv) (proj1 Rr) Zr ltac:(lia)) as (q2 & r2 & -> & Rr2). cbn [bind]. destruct (p_eq r2 (Num 0)) eqn:Er2; [discriminate|exfalso].
    assert (Zr2 : nonzero r2). { destruct (zero_list r2 (proj1 Rr2)) as [X|X]; [apply p_eq_zero in X; [congruence|apply Rr2]|exact X]. }
    pose proof (normal_short r2 (zlen r - 1) (proj1 Rr2) (proj1 (proj2 Rr2))). pose proof (normal_zlen r2 (proj1 Rr2)).
    apply Nt'. apply (remainder_constant v r r2 Rr2 Zr2 ltac:(lia) t' Tv). apply (remainder_divides u v r t' Rr Tu Tv).
  Qed.

  (** Every run ends. *)
  Lemma mapM_diverge {A B} (f : A -> outcome B) xs : (forall x, f x <> Diverge) -> mapM f xs <> Diverge.
  Proof using. clear overflow float_rounds. intros H. induction xs as [|x xs IH]; cbn [mapM]; [discriminate|]. destruct (f x) eqn:E; cbn [bind]; [|discriminate|destruct (H x E)]. destruct (mapM f xs); cbn [bind]; [discriminate|discriminate|congruence]. Qed.
  Lemma pydiv_diverge x y : pydiv x y <> Diverge.
  Proof using. clear overflow float_rounds. unfold pydiv. destruct (y =? 0); discriminate. Qed.
  Lemma primitive_part_diverge p : p <> [] -> primitive_part p <> Diverge.
  Proof using.
    clear overflow float_rounds. intros N. unfold primitive_part. destruct (gcd_list_ok p N) as (c & -> & _). cbn [bind]. set (c' := if last p 0 <? 0 then - c else c). pose proof (mapM_diverge (fun a => pydiv a c') p (fun x => pydiv_diverge x c')) as X. destruct (mapM _ p); cbn [bind]; [discriminate|discriminate|congruence].
  Qed.
  Lemma loop_ends : (forall u v r, float_rounds u v r <> Diverge) -> forall fuel zz d dd u v g h, normal u -> normal v -> zlen v <= zlen u -> (length v < fuel)%nat -> gcd_loop fuel zz d dd u v g h <> Diverge.
  Proof using.
    intros FR. induction fuel as [|fuel IH]; intros zz d dd u v g h Nu Nv L F; [lia|]. cbn [PGcd_Model.gcd_loop].
    destruct (pseudo_quo_rem_ok u v (proj1 Nu) (proj1 Nv)) as [(X & _)|(_ & q & r & -> & _ & Nr & T & _)]; [lia|]. cbn [bind]. destruct (p_eq r (Num 0)) eqn:Er.
    - destruct zz; [|discriminate]. pose proof (primitive_part_diverge v (proj1 Nv)) as X. destruct (primitive_part v); cbn [bind]; [discriminate|discriminate|congruence].
    - change (len r) with (zlen r). destruct (Z.eqb_spec (zlen r - 1) 0); [discriminate|]. pose proof (normal_short r _ Nr T). pose proof (normal_zlen r Nr). destruct h as [h|].
      + pose proof (mapM_diverge (fun e => pydiv e (g * h ^ dd)) r (fun x => pydiv_diverge x _)) as X. destruct (mapM _ r) as [l| |] eqn:El; cbn [bind]; [|discriminate|congruence].
        assert (Ll : length l = length r). { clear - El. revert l El. induction r as [|x r IHr]; intros l El; cbn [mapM] in El; [injection El as <-; reflexivity|]. destruct (pydiv x (g * h ^ dd)); cbn [bind] in El; try discriminate. destruct (mapM _ r); cbn [bind] in El; try discriminate. injection El as <-. cbn [length]. f_equal. apply IHr. reflexivity. }
        assert (Nl : l <> []) by (intros ->; unfold zlen in *; cbn in Ll; lia). destruct (strip_ok (length l) l eq_refl Nl) as (N1 & L1 & _). assert (Pl : polynomial l = strip (length l) l) by (destruct l; [congruence|reflexivity]).
        assert (Nh : next_h overflow dd (last v 0) h <> Diverge). { unfold next_h. destruct (1 <? dd); [pose proof (pydiv_diverge (last v 0 ^ dd) (h ^ (dd - 1))) as Y; destruct (pydiv _ _); cbn [bind]; [discriminate|discriminate|congruence]|]. destruct (dd =? 0); [discriminate|]. destruct (last v 0 =? 0); [discriminate|]. destruct (overflow (last v 0)); discriminate. }
        destruct (next_h overflow dd (last v 0) h) as [h'| |]; cbn [bind]; [|discriminate|congruence]. rewrite Pl. apply IH; [exact Nv|exact N1|unfold zlen in *; lia|unfold zlen in *; lia].
      + pose proof (FR u v r) as Y. destruct (float_rounds u v r); cbn [bind]; [discriminate|discriminate|congruence].
  Qed.
  Lemma p_gcd_zero a b : a = [0] \/ b = [0] -> a <> [] -> b <> [] -> p_gcd a b = Raise ZeroDivisionError.
  Proof using.
    intros H Na Nb. unfold PGcd_Model.p_gcd. unfold gcd_once at 1, content. destruct (gcd_list_ok a Na) as (c1 & E1 & A1 & _). destruct (gcd_list_ok b Nb) as (c2 & E2 & A2 & _). rewrite E1, E2. cbn [bind]. rewrite gcd_correct. cbn [bind].
    assert (Pz : primitive_part [0] = Raise ZeroDivisionError) by reflexivity. destruct H as [->| ->]; [rewrite Pz; reflexivity|].
    assert (Cs : (exists u, primitive_part a = Ret u) \/ primitive_part a = Raise ZeroDivisionError).
    { unfold primitive_part. rewrite E1. cbn [bind]. set (c := if last a 0 <? 0 then - c1 else c1). destruct (Z.eq_dec c 0) as [->|N].
      - right. destruct a as [|x a]; [congruence|reflexivity].
      - left. rewrite (mapM_ret _ (fun x => x / c)) by (intros x _; unfold pydiv; destruct (Z.eqb_spec c 0); [congruence|reflexivity]). eexists. reflexivity. }
    destruct Cs as [(u & ->)| ->]; cbn [bind]; [rewrite Pz|]; reflexivity.
  Qed.
  Lemma p_gcd_ends : (forall u v r, float_rounds u v r <> Diverge) -> forall a b, normal a -> normal b -> p_gcd a b <> Diverge.
  Proof using.
    intros FR a b Na Nb. destruct (zero_list a Na) as [->|Za]; [rewrite p_gcd_zero; [discriminate|tauto|apply Na|apply Nb]|]. destruct (zero_list b Nb) as [->|Zb]; [rewrite p_gcd_zero; [discriminate|tauto|apply Na|apply Nb]|].
    destruct (Z.le_gt_cases (zlen b) (zlen a)) as [L|L].
    - destruct (p_gcd_run a b Na Za Nb Zb L) as (d & u & v & ca & cb & q & r & St & -> & _). apply loop_ends; [exact FR|apply (s_nu _ _ _ _ _ _ _ _ _ St)|apply (s_nv _ _ _ _ _ _ _ _ _ St)|rewrite (s_lu _ _ _ _ _ _ _ _ _ St), (s_lv _ _ _ _ _ _ _ _ _ St); exact L|lia].
    - destruct (p_gcd_run b a Nb Zb Na Za ltac:(lia)) as (d & u & v & ca & cb & q & r & St & _ & E). rewrite (E L). apply loop_ends; [exact FR|apply (s_nu _ _ _ _ _ _ _ _ _ St)|apply (s_nv _ _ _ _ _ _ _ _ _ St)|rewrite (s_lu _ _ _ _ _ _ _ _ _ St), (s_lv _ _ _ _ _ _ _ _ _ St); lia|lia].
  Qed.
End Float.
