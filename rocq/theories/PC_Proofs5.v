(** * Closed forms, and the formula of Meissel *)
From Coq Require Import ZArith List Lia Bool Znumtheory Sorted Permutation.
From Verif Require Import Base Py Sums Lists Primes_Spec PrimeList_Data PrimeList_Proofs Core_Model Core_Spec Core_Props Sieves_Model Primes_Props PC_Model PC_Spec PC_Proofs PC_Proofs2 PC_Proofs3.
Import ListNotations.
Open Scope Z_scope.

(** ** Closed forms *)
Fixpoint expand (acc ps : list Z) : list Z := match ps with [] => acc | p :: ps => expand (acc ++ map (fun d => - p * d) acc) ps end.
Lemma terms_app l l' x : terms (l ++ l') x = terms l x + terms l' x.
Proof. unfold terms. rewrite map_app, zsum_app. reflexivity. Qed.
Lemma terms_scale p l x : 0 < p -> Forall (fun d => d <> 0) l -> terms (map (fun d => - p * d) l) x = - terms l (x / p).
Proof.
  intros Hp F. induction F as [|d l Hd F IH]; [reflexivity|]. unfold terms in *. cbn [map]. rewrite !zsum_cons, IH. destruct (Z.ltb_spec 0 d) as [L|L].
  - destruct (Z.ltb_spec 0 (- p * d)); [nia|]. replace (- (- p * d)) with (p * d) by ring. rewrite Z.div_div by lia. lia.
  - destruct (Z.ltb_spec 0 (- p * d)) as [L'|L']; [|nia]. replace (- p * d) with (p * - d) by ring. rewrite Z.div_div by lia. lia.
Qed.
Lemma terms_perm l l' x : Permutation l l' -> terms l x = terms l' x.
Proof. intros P. unfold terms. induction P; cbn [map]; rewrite ?zsum_cons in *; lia. Qed.
Lemma perm_sort l l' : zsort l = zsort l' -> Permutation l l'.
Proof. intros E. rewrite <- (zsort_perm l), E. apply zsort_perm. Qed.

Lemma expand_ok x : 0 <= x -> forall ps acc l, (forall y, 0 <= y -> terms acc y = Phi one l y) -> Forall (fun d => d <> 0) acc -> Forall prime (l ++ ps) -> NoDup (l ++ ps) -> terms (expand acc ps) x = Phi one (l ++ ps) x.
Proof.
  intros Hx. induction ps as [|p ps IH]; intros acc l E F P ND; cbn [expand]; [rewrite app_nil_r; apply E, Hx|].
  replace (l ++ p :: ps) with ((l ++ [p]) ++ ps) in * by (rewrite <- app_assoc; reflexivity). assert (Pp : prime p) by (rewrite Forall_forall in P; apply P, in_or_app; left; apply in_or_app; right; left; reflexivity). pose proof (prime_ge_2 p Pp).
  apply IH; auto.
  - intros y Hy. rewrite terms_app, terms_scale by (auto; lia). rewrite !E by (try apply Z.div_pos; lia). rewrite Phi_snoc; auto; [change (one p) with 1; lia|apply one_completely| |].
    + apply Forall_app in P as (P & _). apply Forall_app in P as (P & _). exact P.
    + intros I. rewrite <- app_assoc in ND. cbn [app] in ND. apply NoDup_remove_2 in ND. apply ND, in_or_app. left. exact I.
  - apply Forall_app. split; [exact F|]. apply Forall_map. eapply Forall_impl; [|exact F]. intros d Hd E0. cbv beta in Hd. apply Z.mul_eq_0 in E0. lia.
Qed.

Lemma upto17 : primes_upto 17 [2; 3; 5; 7; 11; 13; 17].
Proof. destruct (C14_primes 17) as (l & E & U). vm_compute in E. injection E as <-. exact U. Qed.

Section small.
  Context (N : Z) (ps : list Z) (HP : primes_upto N ps) (HN : 17 <= N).
  Lemma pref7 : pref ps 7 = [2; 3; 5; 7; 11; 13; 17] /\ 7 <= zlen ps.
  Proof using All.
    pose proof (pi_pref N ps HP 17 HN) as U. pose proof (C14_unique 17 _ _ U upto17) as E. pose proof (pi_list 17 _ upto17) as L. change (zlen [2; 3; 5; 7; 11; 13; 17]) with 7 in L. rewrite <- L in E. split; [exact E|]. pose proof (pi_range N ps HP 17 HN). lia.
  Qed.
  Lemma pref_le a b : 0 <= a <= b -> pref ps a = pref (pref ps b) a.
  Proof. intros H. unfold pref. rewrite firstn_firstn. f_equal. lia. Qed.
  Lemma closed_ok a x : 1 <= a <= 7 -> 0 <= x -> closed a x = Phi one (pref ps a) x.
  Proof using All.
    intros Ha Hx. rewrite (pref_le a 7) by lia. destruct pref7 as (-> & _).
    assert (G : forall k l, l = firstn k [2; 3; 5; 7; 11; 13; 17] -> terms (expand [1] l) x = Phi one l x).
    { intros k l El. apply (expand_ok x Hx l [1] []).
      - intros y Hy. rewrite Phi_nil, Sum_one_len by lia. unfold terms. cbn. rewrite Z.div_1_r. lia.
      - repeat constructor. discriminate.
      - cbn [app]. rewrite El. apply Forall_forall. intros p Hp. apply upto17. rewrite <- (firstn_skipn k). apply in_or_app. left. exact Hp.
      - cbn [app]. rewrite El. assert (ND : NoDup [2; 3; 5; 7; 11; 13; 17]) by (repeat constructor; cbn; intuition discriminate). rewrite <- (firstn_skipn k) in ND. clear - ND. induction (firstn k _) as [|u m IH]; [constructor|]. cbn [app] in ND. inversion ND as [|? ? X Y]; subst. constructor; [intros Z0; apply X, in_or_app; left; exact Z0|apply IH, Y]. }
    unfold pref. rewrite <- (G (Z.to_nat a) _ eq_refl). clear G.
    assert (a = 1 \/ a = 2 \/ a = 3 \/ a = 4 \/ a = 5 \/ a = 6 \/ a = 7) as A by lia. unfold closed.
    destruct A as [-> |[-> |[-> |[-> |[-> |[-> | ->]]]]]]; cbn [Z.eqb Pos.eqb]; apply terms_perm, perm_sort; vm_compute; reflexivity.
  Qed.

  (** ** Sieving by few primes *)
  Lemma pi_at j : 0 <= j < zlen ps -> pi (rd ps j) = j + 1.
  Proof using HP.
    intros H. pose proof (ps_bound N ps HP j H) as B. pose proof (pi_range N ps HP _ B). assert (j < pi (rd ps j)) by (apply (pi_rd N ps HP); lia). destruct (Z_le_gt_dec (pi (rd ps j)) (j + 1)); [lia|exfalso].
    assert (rd ps (j + 1) <= rd ps j) by (apply (pi_rd N ps HP); lia). pose proof (ps_lt N ps HP j (j + 1)). lia.
  Qed.
  Lemma pi_before j : 0 <= j < zlen ps -> pi (rd ps j - 1) = j.
  Proof using HP.
    intros H. pose proof (ps_ge2 N ps HP j H) as G. pose proof (pi_at j H) as A. unfold pi in *. replace (rd ps j) with (rd ps j - 1 + 1) in A by lia. rewrite PS_step in A by lia. replace (rd ps j - 1 + 1) with (rd ps j) in A by lia.
    unfold pr in A. change (one (rd ps j)) with 1 in A. destruct (prime_dec (rd ps j)) as [|X]; [lia|]. exfalso. apply X, (ps_prime N ps HP), H.
  Qed.
  Lemma Phi_pi y x : y <= N -> 1 <= y <= x -> x < (y + 1) * (y + 1) -> Phi one (pref ps (pi y)) x = 1 + pi x - pi y.
  Proof using HP. intros HY H L. rewrite (Phi_rest one _ y x); [reflexivity|apply (pi_pref N ps HP y HY)|exact H|exact L]. Qed.
  Lemma Phi_small y x : y <= N -> 1 <= x <= y -> Phi one (pref ps (pi y)) x = 1.
  Proof using HP.
    intros HY H. pose proof (pi_pref N ps HP y HY) as (_ & I). assert (Nz : Forall (fun q => q <> 0) (pref ps (pi y))) by (apply Forall_forall; intros q Hq; apply I in Hq as (Pq & _); apply prime_ge_2 in Pq; lia).
    unfold Phi. rewrite Sum_first by lia. rewrite Sum_zero.
    - assert (cop (pref ps (pi y)) 1 = 1) as ->; [|reflexivity]. unfold cop. assert (free (pref ps (pi y)) 1 = true) as ->; [|reflexivity]. apply free_spec; [exact Nz|]. intros p Hp D. apply I in Hp as (Pp & _). apply prime_ge_2 in Pp. apply Z.divide_1_r_nonneg in D; lia.
    - intros m Hm. assert (cop (pref ps (pi y)) m = 0) as ->; [|lia]. unfold cop. assert (free (pref ps (pi y)) m = false) as ->; [|reflexivity]. apply not_true_iff_false. rewrite free_spec by exact Nz. intros Fr. destruct (NT.prime_divisor_exists m ltac:(lia)) as (p & Pp & D). apply (Fr p); [|exact D].
      apply I. split; [exact Pp|]. apply Z.divide_pos_le in D; lia.
  Qed.

  Lemma Phi_last j y : 0 <= j < zlen ps -> 5 <= rd ps j -> rd ps j - 2 <= y < rd ps j * rd ps j -> Phi one (pref ps j) y = 1 + pi y - j.
  Proof using HP.
    intros Hj H5 H. pose proof (ps_bound N ps HP j Hj). rewrite <- (pi_before j Hj) at 1. destruct (Z.eq_dec y (rd ps j - 2)) as [-> |].
    - rewrite Phi_small by lia. pose proof (pi_before j Hj) as B. unfold pi in *. replace (rd ps j - 1) with (rd ps j - 2 + 1) in B by lia. rewrite PS_step in B by lia. assert (pr (rd ps j - 2 + 1) = 0) as E; [|rewrite E in B; lia].
      unfold pr. destruct (prime_dec (rd ps j - 2 + 1)) as [X|]; [|reflexivity]. exfalso. pose proof (ps_prime N ps HP j Hj) as P. assert (O : forall q, prime q -> 3 <= q -> q mod 2 = 1).
      { intros q Pq Lq. pose proof (Z.mod_pos_bound q 2 ltac:(lia)). destruct (Z.eq_dec (q mod 2) 0) as [E|]; [|lia]. apply Z.mod_divide in E; [|lia]. apply prime_div_prime in E; [lia|exact prime_2|exact Pq]. }
      pose proof (O _ P ltac:(lia)) as O1. pose proof (O _ X ltac:(lia)) as O2. pose proof (Z.div_mod (rd ps j) 2 ltac:(lia)). pose proof (Z.div_mod (rd ps j - 2 + 1) 2 ltac:(lia)). lia.
    - rewrite Phi_pi by lia. rewrite pi_before by exact Hj. reflexivity.
  Qed.

  Lemma tri a b : a <= b -> (a - b) * (b + a - 1) / 2 = - Sum a b (fun j => j).
  Proof.
    intros H. symmetry. apply Z.div_unique_exact; [lia|]. replace b with (a + (b - a)) by lia. assert (Hn : 0 <= b - a) by lia. pattern (b - a). apply natlike_ind; [rewrite Z.add_0_r, Sum_nil by lia; lia| |exact Hn].
    intros n Hn' IH. unfold Z.succ. rewrite Z.add_assoc, Sum_last by lia. lia.
  Qed.

  (** The second level of Legendre's recursion. *)
  Lemma level2 x y a : y <= N -> 1 <= y <= x -> x < (y + 1) * (y + 1) -> 0 <= a <= pi y -> (forall j, a <= j < pi y -> 5 <= rd ps j /\ rd ps j - 2 <= x / rd ps j < rd ps j * rd ps j) ->
    Phi one (pref ps a) x = pi x - a + 1 + ((a - pi y) * (pi y + a - 1) / 2 + Sum a (pi y) (fun j => pi (x / rd ps j))).
  Proof using HP.
    intros HY H L Ha HJ. pose proof (pi_range N ps HP y HY) as R. pose proof (Phi_unfold N ps HP one x a (pi y) one_completely ltac:(lia) Ha ltac:(lia)) as U. rewrite Phi_pi in U by assumption.
    rewrite tri by lia. assert (E : Sum a (pi y) (fun j => one (rd ps j) * Phi one (pref ps j) (x / rd ps j)) = Sum a (pi y) (fun j => pi (x / rd ps j)) - Sum a (pi y) (fun j => j) + (pi y - a)).
    { assert (EO : pi y - a = Sum a (pi y) (fun _ => 1)). { clear - Ha. replace (pi y) with (a + (pi y - a)) by lia. assert (Hn : 0 <= pi y - a) by lia. generalize dependent (pi y - a). intros n Hn. pattern n. apply natlike_ind; [rewrite Z.add_0_r, Sum_nil by lia; lia| |exact Hn]. intros k Hk IH. unfold Z.succ. rewrite Z.add_assoc, Sum_last by lia. lia. }
      rewrite EO, <- Sum_minus, <- Sum_plus. apply Sum_ext. intros j Hj. specialize (HJ j Hj). rewrite Phi_last by lia. unfold one. lia. }
    lia.
  Qed.
End small.
