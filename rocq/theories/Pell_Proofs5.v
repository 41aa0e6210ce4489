(** * Minimal positive solutions and the solution generator; the Farey search *)
From Coq Require Import ZArith List Bool Lia Permutation Sorted.
From Verif Require Import Base Py Loop Core_Model Core_Spec Classify_Model Classify_Proofs Classify_Proofs2 Pell_Model Pell_Proofs Pell_Proofs2 Pell_Proofs3 Pell_Proofs4.
Import ListNotations.
Open Scope Z_scope.

Lemma range_step_In r B D x : 0 < D -> In x (range_step r B D) <-> exists i, 0 <= i /\ x = r + i * D /\ x < B.
Proof.
  intros HD. unfold range_step. rewrite in_map_iff. split.
  - intros (i & <- & Hi). apply zrange_In in Hi. exists i. split; [lia|]. split; [reflexivity|]. assert (i * D + D <= B - r + D - 1 \/ B - r + D - 1 < i * D + D) as [H|H] by lia; [lia|].
    exfalso. assert ((B - r + D - 1) / D < i + 1) by (apply Z.div_lt_upper_bound; lia). lia.
  - intros (i & Hi & -> & HB). exists i. split; [reflexivity|]. apply zrange_In. split; [exact Hi|]. assert (i + 1 <= (B - r + D - 1) / D) by (apply Z.div_le_lower_bound; lia). lia.
Qed.

Lemma pair_insert_perm x l : Permutation (pair_insert x l) (x :: l).
Proof. induction l as [|y l IH]; [reflexivity|]. cbn [pair_insert]. destruct (pair_le x y); [reflexivity|]. rewrite IH. apply perm_swap. Qed.
Lemma pair_sort_perm l : Permutation (pair_sort l) l.
Proof. induction l as [|x l IH]; [reflexivity|]. unfold pair_sort in *. cbn [fold_right]. rewrite pair_insert_perm. constructor. exact IH. Qed.
Lemma pair_sort_In a l : In a (pair_sort l) <-> In a l.
Proof. split; apply Permutation_in; [|symmetry]; apply pair_sort_perm. Qed.

Lemma mapM_total {X Y} (f : X -> outcome Y) (P : X -> Y -> Prop) l : (forall x, In x l -> exists y, f x = Ret y /\ P x y) -> exists ys, mapM f l = Ret ys /\ Forall2 P l ys.
Proof.
  induction l as [|x l IH]; intros H; [exists []; split; [reflexivity|constructor]|]. destruct (H x (or_introl eq_refl)) as (y & E & Hy). destruct IH as (ys & E' & F); [intros; apply H; right; assumption|].
  exists (y :: ys). cbn [mapM]. rewrite E. cbn [bind]. rewrite E'. split; [reflexivity|constructor; assumption].
Qed.

Lemma mapM_inv {X Y} (f : X -> outcome Y) l : forall ys, mapM f l = Ret ys -> Forall2 (fun x y => f x = Ret y) l ys.
Proof.
  induction l as [|x l IH]; intros ys E; cbn [mapM] in E; [injection E as <-; constructor|]. destruct (f x) as [y|ex|] eqn:Ex; cbn [bind] in E; try discriminate.
  destruct (mapM f l) as [zs|ex|]; cbn [bind] in E; try discriminate. injection E as <-. constructor; auto.
Qed.
Lemma Forall2_concat_In {X Y} (P : X -> list Y -> Prop) l ys y : Forall2 P l ys -> In y (concat ys) -> exists x z, In x l /\ P x z /\ In y z.
Proof. intros F. induction F as [|x z l zs H F IH]; cbn [concat]; [intros []|]. intros Hy. apply in_app_iff in Hy as [Hy|Hy]; [exists x, z; cbn; auto|]. destruct (IH Hy) as (x' & z' & A & B & C). exists x', z'. cbn. auto. Qed.
Lemma Forall2_In_concat {X Y} (P : X -> list Y -> Prop) l ys x : Forall2 P l ys -> In x l -> exists z, P x z /\ incl z (concat ys).
Proof. intros F. induction F as [|x' z l zs H F IH]; [intros []|]. intros [-> |Hx]; cbn [concat]; [exists z; split; [exact H|apply incl_appl, incl_refl]|]. destruct (IH Hx) as (z' & A & B). exists z'. split; [exact A|apply incl_appr, B]. Qed.

(** What one x contributes. *)
Lemma at_sound D N x l : D <> 0 -> (D | x * x - N) -> fundamental_at D N x = Ret l -> forall a, In a l -> sols D N (fst a) (snd a) /\ 0 < snd a /\ (fst a = x \/ fst a = - x).
Proof.
  intros HD (c & Ec). unfold fundamental_at, pydiv. destruct (Z.eqb_spec D 0); [contradiction|]. cbn [bind]. rewrite Ec, Z.div_mul by assumption.
  destruct (is_square_ok c) as [(y & Hy & Ey & ->)|(_ & ->)]; cbn [bind]; [|intros E; injection E as <-; intros a []].
  assert (S : sols D N x y) by (unfold sols; rewrite <- Z.mul_assoc, Ey; lia).
  destruct (Z.ltb_spec 0 y); [|intros E; injection E as <-; intros a []]. unfold pymod. destruct (N =? 0); cbn [bind]; [discriminate|].
  assert (G : forall b : bool, Ret (if b then [(x, y)] else [(x, y); (- x, y)]) = Ret l -> forall a, In a l -> sols D N (fst a) (snd a) /\ 0 < snd a /\ (fst a = x \/ fst a = - x)).
  { intros b E. injection E as <-. intros a Ha. destruct b; cbn [In] in Ha; [destruct Ha as [<-|[]]|destruct Ha as [<-|[<-|[]]]]; cbn [fst snd]; repeat split; auto; unfold sols in *; lia. }
  destruct ((- x * x - D * y * y) mod N =? 0); cbn [bind]; [apply G|apply (G false)].
Qed.

Lemma at_ok D N x y : 2 <= D -> N <> 0 -> sols D N x y -> 0 < y -> fundamental_at D N x = Ret [(x, y); (- x, y)] \/
  (fundamental_at D N x = Ret [(x, y)] /\ (N | - x * x - D * y * y) /\ (N | 2 * x * y)).
Proof.
  intros HD HN S Hy. unfold fundamental_at, pydiv, pymod. destruct (Z.eqb_spec D 0); [lia|]. cbn [bind]. unfold sols in S. replace (x * x - N) with (y * y * D) by lia. rewrite Z.div_mul by assumption.
  destruct (is_square_ok (y * y)) as [(z & Hz & Ez & ->)|(X & _)]; [|exfalso; apply (X y eq_refl)]. assert (z = y) as -> by nia. cbn [bind]. destruct (Z.ltb_spec 0 y); [|lia].
  destruct (Z.eqb_spec N 0); [contradiction|]. cbn [bind]. destruct (Z.eqb_spec ((- x * x - D * y * y) mod N) 0) as [E1|E1]; cbn [bind]; [|left; reflexivity].
  destruct (Z.eqb_spec ((2 * x * y) mod N) 0) as [E2|E2]; [right|left; reflexivity]. split; [reflexivity|]. split; apply Z.mod_divide; assumption.
Qed.
Lemma at_total D N x : 2 <= D -> N <> 0 -> exists l, fundamental_at D N x = Ret l.
Proof.
  intros HD HN. unfold fundamental_at, pydiv, pymod. destruct (Z.eqb_spec D 0); [lia|]. cbn [bind]. destruct (is_square_ok ((x * x - N) / D)) as [(y & _ & _ & ->)|(_ & ->)]; cbn [bind]; [|eexists; reflexivity].
  destruct (0 <? y); [|eexists; reflexivity]. destruct (Z.eqb_spec N 0); [contradiction|]. cbn [bind]. destruct (_ =? 0); cbn [bind]; eexists; reflexivity.
Qed.

Lemma minimal_of_sols D N u v a : sols D 1 u v -> sols D N (fst a) (snd a) -> sols D N (fst (minimal_of D N u v a)) (snd (minimal_of D N u v a)).
Proof.
  intros U S. destruct a as (x, y). unfold minimal_of. cbn [fst snd] in S. destruct (x <? 0); [|exact S]. destruct (0 <? N).
  - apply (times_sols D N (- x, - y) (u, v) U). cbn [fst snd]. unfold sols in *. lia.
  - apply (times_sols D N (x, y) (u, v) U). exact S.
Qed.

(** Soundness: whatever the bound is. *)
Lemma minimal_sound sqrts bound fuel D N l : (forall rs x, sqrts N D = Ret rs -> In x rs -> (D | x * x - N)) ->
  pell_minimal_positive_solutions sqrts bound fuel D N = Ret l -> forall x y, In (x, y) l -> sols D N x y.
Proof.
  intros Hs. unfold pell_minimal_positive_solutions. destruct (pell_fundamental_solution fuel D 1) as [[(u, v)|]|ex|] eqn:EF; cbn [bind]; try discriminate.
  pose proof (fundamental_sound fuel D 1 u v EF) as U.
  assert (HD : 0 < D) by (destruct (Z_lt_le_dec 0 D); [assumption|rewrite fundamental_bad in EF; [discriminate|left; assumption]]).
  destruct (Z.eqb_spec N 1) as [-> |N1]; [intros E; injection E as <-; intros x y [E|[]]; injection E as <- <-; exact U|].
  destruct (sqrts N D) as [rs|ex|] eqn:Es; cbn [bind]; try discriminate. specialize (Hs rs). destruct (mapM _ _) as [found|ex|] eqn:Em; cbn [bind]; try discriminate. intros E; injection E as <-.
  intros x y Hin. apply (proj1 (pair_sort_In _ _)) in Hin. apply in_map_iff in Hin as (a & Ea & Ha). apply mapM_inv in Em. destruct (Forall2_concat_In _ _ _ _ Em Ha) as (x0 & z & Hx & Hz & Haz). cbv beta in Hz.
  apply in_flat_map in Hx as (r & Hr & Hx). apply range_step_In in Hx as (i & Hi & -> & _); [|exact HD]. destruct (Hs r eq_refl Hr) as (c & Ec).
  destruct (at_sound D N (r + i * D) z ltac:(lia) ltac:(exists (c + 2 * r * i + i * i * D); lia) Hz a Haz) as (S & _).
  pose proof (minimal_of_sols D N u v a U S) as S'. rewrite Ea in S'. exact S'.
Qed.

Lemma family_sound D N B u v fuel x y l : sols D 1 u v -> sols D N x y -> run (family_step D B u v) fuel (x, y, []) = Ret l -> forall a, In a l -> sols D N (fst a) (snd a).
Proof.
  intros U S E. pose proof (run_partial (family_step D B u v) (fun s => sols D N (fst (fst s)) (snd (fst s)) /\ forall a, In a (snd s) -> sols D N (fst a) (snd a)) (fun o => forall l, o = Ret l -> forall a, In a l -> sols D N (fst a) (snd a))) as R.
  destruct (R ltac:(intros ((p, q), out) (H1 & H2); cbn [fst snd] in *; unfold family_step; destruct (_ && _);
     [cbn [fst snd]; split; [apply (times_sols D N (p, q) (u, v) U H1)|intros a Ha; apply in_app_iff in Ha as [Ha|[<-|[]]]; [apply H2, Ha|exact H1]]|intros l' X; injection X as <-; exact H2]) fuel (x, y, []) ltac:(cbn [fst snd]; split; [exact S|intros a []])) as [X|X]; [congruence|apply (X l E)].
Qed.

Lemma generator_sound sqrts bound fuel D N B l : (forall rs x, sqrts N D = Ret rs -> In x rs -> (D | x * x - N)) ->
  pell_solution_generator sqrts bound fuel D N B = Ret l -> forall x y, In (x, y) l -> sols D N x y.
Proof.
  intros Hs. unfold pell_solution_generator. destruct (pell_fundamental_solution fuel D 1) as [[(u, v)|]|ex|] eqn:EF; cbn [bind]; try discriminate. pose proof (fundamental_sound fuel D 1 u v EF) as U.
  destruct (pell_minimal_positive_solutions sqrts bound fuel D N) as [m|ex|] eqn:Em; cbn [bind]; try discriminate. destruct (mapM _ m) as [fs|ex|] eqn:Ef; cbn [bind]; try discriminate. intros E; injection E as <-.
  intros x y Hin. apply mapM_inv in Ef. destruct (Forall2_concat_In _ _ _ _ Ef Hin) as ((p, q) & z & Hx & Hz & Haz). cbv beta iota in Hz.
  apply (family_sound D N B u v fuel p q z U (minimal_sound sqrts bound fuel D N m Hs Em p q Hx) Hz (x, y) Haz).
Qed.
