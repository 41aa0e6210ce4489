(** * C27: pell_small and _pell_small_minimal_positive_solutions for N^2 < D *)
From Coq Require Import ZArith List Lia Bool.
From Verif Require Import Base Py Loop Core_Model Core_Spec Pell_Model Pell_Spec Pell_Proofs Pell_Proofs2 Pell_Proofs3 Pell_Proofs4 Pell_Proofs5 Pell_Proofs7 Pell_Proofs9 Pell_Proofs10 Pell_Props.
Import ListNotations.
Open Scope Z_scope.

(** pell_small for 0 < N^2 < D: sooner or later it yields every solution in coprime positive integers, and it never yields
    another pair. *)
Theorem C27_pell_small fuel D N : 0 < D -> not_square D -> exact_range D -> 4 * D < 2 ^ Z.of_nat fuel -> N <> 0 -> N * N < D ->
  (forall m, exists l, pell_small fuel D N m = Ret l) /\
  (forall m l x y, pell_small fuel D N m = Ret l -> In (x, y) l -> 1 <= x /\ 1 <= y /\ solution D N x y /\ Z.gcd x y = 1) /\
  (forall x y, 1 <= x -> 1 <= y -> solution D N x y -> Z.gcd x y = 1 -> exists m0, forall m, (m0 <= m)%nat -> exists l, pell_small fuel D N m = Ret l /\ In (x, y) l).
Proof.
  intros H NS E Hf N0 HN. pose proof (pos2 D H NS) as H2. destruct (sqrt_range D H2 NS) as (Hr & Hd).
  pose proof (fun m => pell_small_In fuel D N m H2 NS (exact_sqrt D ltac:(lia) E) Hf (square_below N D H2 HN)) as P. split; [|split].
  - intros m. destruct (P m) as (l & -> & _). exists l. reflexivity.
  - intros m l x y El I. destruct (P m) as (l' & E' & Hl). rewrite E' in El. injection El as ->. apply Hl in I as (k & _ & -> & -> & S).
    pose proof (AB_pos D _ Hr Hd k) as (P1 & P2 & _). repeat split; auto. apply convergent_gcd; assumption.
  - intros x y Hx Hy S G. destruct (small_norm_convergent D _ Hr Hd x y N Hx Hy G N0 HN S) as (k & Ex & Ey). exists (Datatypes.S k). intros m Hm.
    destruct (P m) as (l & El & Hl). exists l. split; [exact El|]. apply Hl. exists k. repeat split; auto; lia.
Qed.

(** So the solutions that have a common factor are missing, such as (2u, 2v) for N = 4. *)
Theorem C27_pell_small_common_factor_refuted fuel D f u v : 0 < D -> not_square D -> exact_range D -> 4 * D < 2 ^ Z.of_nat fuel -> 2 <= f -> f * f * (f * f) < D -> 1 <= u -> 1 <= v -> solution D 1 u v ->
  solution D (f * f) (f * u) (f * v) /\ forall m l, pell_small fuel D (f * f) m = Ret l -> ~ In (f * u, f * v) l.
Proof.
  intros H NS E Hf F2 FD Hu Hv S. split; [unfold solution in *; replace (f * u * (f * u) - D * (f * v) * (f * v)) with (f * f * (u * u - D * v * v)) by ring; rewrite S; lia|].
  intros m l El I. assert (N0 : f * f <> 0) by nia. destruct (C27_pell_small fuel D (f * f) H NS E Hf N0 FD) as (_ & P & _). destruct (P m l _ _ El I) as (_ & _ & _ & G).
  rewrite Z.gcd_mul_mono_l_nonneg in G by lia. apply Z.mul_eq_1 in G. lia.
Qed.

(** The guard of pell_small compares D^2 with N where the message says N < sqrt D: x^2 - 7 y^2 = 9 passes it, and its solution
    (4, 1) is never yielded. *)
Theorem C27_pell_small_guard_refuted fuel m : 28 < 2 ^ Z.of_nat fuel -> solution 7 9 4 1 /\ Z.gcd 4 1 = 1 /\ exists l, pell_small fuel 7 9 m = Ret l /\ ~ In (4, 1) l.
Proof.
  intros Hf. split; [reflexivity|]. split; [reflexivity|].
  assert (NS : not_square 7) by (intros k Ek; assert (-2 <= k <= 2 \/ k <= -3 \/ 3 <= k) as [C|[C|C]] by lia; [assert (k = -2 \/ k = -1 \/ k = 0 \/ k = 1 \/ k = 2) as C' by lia; destruct C' as [-> |[-> |[-> |[-> | ->]]]]; discriminate|nia|nia]).
  destruct (pell_small_In fuel 7 9 m ltac:(lia) NS (exact_sqrt 7 ltac:(lia) (or_introl eq_refl)) ltac:(lia) ltac:(lia)) as (l & El & Hl). exists l. split; [exact El|].
  intros I. apply Hl in I as (k & _ & E4 & _). destruct (sqrt_range 7 ltac:(lia) NS) as (Hr & Hd).
  destruct k as [|[|k]]; [vm_compute in E4; discriminate..|]. assert (5 <= A 7 (Z.sqrt 7) 2) by (vm_compute; discriminate). pose proof (A_mono 7 _ Hr Hd 2 (Datatypes.S (Datatypes.S k)) ltac:(lia)). lia.
Qed.

(** The companion for 0 < N^2 < D: it terminates, and if (u, v) is the least positive solution for 1 its list has exactly the
    positive solutions (x, y) whose x, divided by the common factor of x and y, is below u. *)
Theorem C27_pell_small_minimal fuel D N u v : 0 < D -> not_square D -> exact_range D -> 4 * D < 2 ^ Z.of_nat fuel -> N <> 0 -> N * N < D -> least_positive D 1 u v ->
  exists l, pell_small_minimal_positive_solutions fuel D N = Ret l /\
    forall x y, In (x, y) l <-> 1 <= x /\ 1 <= y /\ solution D N x y /\ x / Z.gcd x y < u.
Proof. intros H NS E Hf N0 HN LS. pose proof (pos2 D H NS). apply (small_minimal_ok fuel D N u v); auto. apply exact_sqrt; [lia|exact E]. Qed.

(** Hence for a square N = f^2 the solution (f u, f v) is not in the list; for N = 1 the list is empty. *)
Theorem C27_pell_small_minimal_square_refuted fuel D f u v : 0 < D -> not_square D -> exact_range D -> 4 * D < 2 ^ Z.of_nat fuel -> 1 <= f -> f * f * (f * f) < D -> least_positive D 1 u v ->
  exists l, pell_small_minimal_positive_solutions fuel D (f * f) = Ret l /\ solution D (f * f) (f * u) (f * v) /\ ~ In (f * u, f * v) l /\ (f = 1 -> l = []).
Proof.
  intros H NS E Hf F1 FD LS. assert (N0 : f * f <> 0) by nia. destruct (C27_pell_small_minimal fuel D (f * f) u v H NS E Hf N0 FD LS) as (l & El & Hl). destruct LS as (Hu & Hv & S & Least).
  exists l. split; [exact El|]. split; [unfold solution in *; replace (f * u * (f * u) - D * (f * v) * (f * v)) with (f * f * (u * u - D * v * v)) by ring; rewrite S; lia|].
  assert (coprime : forall x y, solution D 1 x y -> Z.gcd x y = 1).
  { intros x y S'. apply Z.bezout_1_gcd. exists x, (- D * y). unfold solution in S'. lia. }
  split.
  - intros I. apply Hl in I as (_ & _ & _ & Lt). rewrite Z.gcd_mul_mono_l_nonneg, (coprime u v S), Z.mul_1_r, Z.mul_comm, Z.div_mul in Lt by lia. lia.
  - intros ->. destruct l as [|(x, y) l]; [reflexivity|]. exfalso. destruct (proj1 (Hl x y) (or_introl eq_refl)) as (Hx & Hy & S' & Lt). change (1 * 1) with 1 in S'. rewrite (coprime x y S'), Z.div_1_r in Lt. destruct (Least x y Hx Hy S'). lia.
Qed.

Print Assumptions C27_pell_small.
Print Assumptions C27_pell_small_common_factor_refuted.
Print Assumptions C27_pell_small_guard_refuted.
Print Assumptions C27_pell_small_minimal.
Print Assumptions C27_pell_small_minimal_square_refuted.

(** Non-vacuity: x^2 - 7 y^2 = 2, whose least unit is (8, 3), and x^2 - 19 y^2 = 4. *)
Example pell_small_example : pell_small 6 7 2 10 = Ret [(3, 1); (45, 17); (717, 271)] /\ pell_small_minimal_positive_solutions 6 7 2 = Ret [(3, 1)] /\ 2 * 2 < 7 /\ solution 7 2 45 17.
Proof. repeat split; vm_compute; reflexivity. Qed.
Example pell_small_factor_example : exists u v, least_positive 19 1 u v /\ not_square 19 /\ exact_range 19 /\ 4 * 19 < 2 ^ Z.of_nat 7 /\ 2 * 2 * (2 * 2) < 19.
Proof.
  assert (NS : not_square 19) by (intros k Ek; assert (-4 <= k <= 4 \/ k <= -5 \/ 5 <= k) as [C|[C|C]] by lia; [nia|nia|nia]).
  assert (R : exact_range 19) by (left; reflexivity). destruct (C27_fundamental_solution 7 19 1) as [(x & y & _ & L)|(E & _)]; auto; try lia; try discriminate; try reflexivity.
  exists x, y. split; [exact L|]. split; [exact NS|]. split; [exact R|]. split; reflexivity.
Qed.
