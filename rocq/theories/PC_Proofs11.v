(** * The method of Lagarias, Miller and Odlyzko: the tree of the recursion *)
From Coq Require Import ZArith List Bool Lia Znumtheory Permutation Sorted.
From Verif Require Import Base Dict Sums Lists Primes_Spec PC_Model PC_Spec PC_Proofs PC_Proofs2 PC_Proofs3 PC_Proofs5 PC_Proofs6 PC_Proofs8 Bertrand2.
Import ListNotations.
Open Scope Z_scope.

Definition sgn (s : Z) : Z := if 0 <? s then 1 else -1.
Lemma sgn_opp s : s = 1 \/ s = -1 -> sgn (- s) = - sgn s.
Proof. intros [-> | ->]; reflexivity. Qed.

(** The largest prime up to t is more than t/2. *)
Lemma last_half N ps t : primes_upto N ps -> 2 <= t <= N -> 1 <= pi t <= zlen ps /\ rd ps (pi t - 1) <= t < 2 * rd ps (pi t - 1).
Proof.
  intros HP H. pose proof (pi_range N ps HP t ltac:(lia)) as R. destruct (bertrand (t / 2)) as (p & P & B1 & B2); [apply Z.div_le_lower_bound; lia|]. pose proof (Z.div_mod t 2 ltac:(lia)) as DM. pose proof (Z.mod_pos_bound t 2 ltac:(lia)) as MB.
  assert (I : In p ps) by (apply HP; split; [exact P|lia]). destruct (In_rd ps p I) as (j & J1 & J2). assert (j < pi t) by (apply (pi_rd N ps HP); lia). split; [lia|].
  split; [apply (pi_rd N ps HP); lia|]. assert (p <= rd ps (pi t - 1)) by (rewrite <- J2; apply (ps_le N ps HP); lia). lia.
Qed.

Section tree.
  Context (N x t : Z) (ps : list Z) (HP : primes_upto N ps).
  Definition ph (a v : Z) : Z := Phi one (pref ps a) v.
  Lemma ph_step a v : 1 <= a <= zlen ps -> 0 <= v -> ph a v = ph (a - 1) v - ph (a - 1) (v / rd ps (a - 1)).
  Proof using HP.
    intros Ha Hv. unfold ph. replace a with (a - 1 + 1) at 1 by lia. rewrite pref_S by lia. rewrite Phi_snoc; [unfold one; lia|apply one_completely|apply (pref_prime N ps HP); lia|apply (ps_prime N ps HP); lia|apply (pref_notin N ps HP); lia|exact Hv].
  Qed.

  Definition nsum (st : list (Z * Z * Z)) : Z := zsum (map (fun '(n, a, s) => sgn s * ph a (x / n)) st).
  Definition lsum (a : Z) (l : list (Z * Z)) : Z := zsum (map (fun '(v, s) => sgn s * ph a v) l).
  Definition ssum (d : list (Z * list (Z * Z))) : Z := zsum (map (fun '(a, l) => lsum a l) d).
  Definition at_ (d : list (Z * list (Z * Z))) (a : Z) : list (Z * Z) := match dget d a with Some l => l | None => [] end.

  Lemma lsum_snoc a l v s : lsum a (l ++ [(v, s)]) = lsum a l + sgn s * ph a v.
  Proof using. unfold lsum. rewrite map_app, zsum_app. cbn [map]. rewrite zsum_cons, zsum_nil. lia. Qed.
  Lemma ssum_add d a v s : ssum (dset d a (at_ d a ++ [(v, s)])) = ssum d + sgn s * ph a v.
  Proof using.
    unfold ssum, at_. induction d as [|[k l] d IH]; cbn [dget dset map].
    - rewrite zsum_cons, !zsum_nil. cbn [app]. unfold lsum. cbn [map]. rewrite zsum_cons, zsum_nil. lia.
    - destruct (Z.eqb_spec k a) as [-> |]; cbn [map]; rewrite !zsum_cons; [rewrite lsum_snoc; lia|rewrite IH; lia].
  Qed.
  Lemma at_keys d a : ~ In a (dkeys d) -> at_ d a = [].
  Proof using. intros H. unfold at_. rewrite (proj2 (dget_None d a) H). reflexivity. Qed.
  Lemma ssum_keys d : NoDup (dkeys d) -> ssum d = zsum (map (fun a => lsum a (at_ d a)) (dkeys d)).
  Proof using.
    intros ND. unfold ssum, dkeys. rewrite map_map. f_equal. apply map_ext_in. intros [a l] H. cbn [fst]. unfold at_. rewrite (dget_In d a l ND H). reflexivity.
  Qed.

  Context (c : Z) (Ht : 2 <= t <= N) (Hc : c = pi t) (Hx : 0 <= x).
  Definition pc : Z := rd ps (c - 1).
  Lemma c_range : 1 <= c <= zlen ps /\ pc <= t < 2 * pc.
  Proof using HP Ht Hc. unfold pc. rewrite Hc. apply (last_half N); assumption. Qed.

  Definition node (nd : Z * Z * Z) : Prop := let '(n, a, s) := nd in 1 <= n /\ 1 <= a <= c /\ (s = 1 \/ s = -1) /\ (a = c -> n = 1) /\ (a = c - 1 -> n <= t).
  Definition covered (k : Z) (st : list (Z * Z * Z)) (d : list (Z * list (Z * Z))) : Prop :=
    In k (dkeys d) \/ In (1, c, 1) st \/ (exists a s, k + 1 <= a <= c - 1 /\ In (pc, a, s) st) \/ (exists n s, t < n /\ In (n, k, s) st).
  Definition special_ok (d : list (Z * list (Z * Z))) : Prop :=
    NoDup (dkeys d) /\ (forall a, In a (dkeys d) -> 1 <= a <= c - 2) /\ forall a v s, In (v, s) (at_ d a) -> exists n, t < n /\ v = x / n.
  Definition tinv (T : Z) (z : list (Z * Z * Z) * Z * list (Z * list (Z * Z))) : Prop := let '(st, value, d) := z in
    Forall node st /\ special_ok d /\ (forall k, 1 <= k <= c - 2 -> covered k st d) /\ value + nsum st + ssum d = T.
  Definition tm (z : list (Z * Z * Z) * Z * list (Z * list (Z * Z))) : Z := zsum (map (fun '(n, a, s) => 2 ^ (a + 1) - 1) (fst (fst z))).

  Lemma pow_ge1 a : 0 <= a -> 1 <= 2 ^ a.
  Proof using. intros H. pose proof (Z.pow_pos_nonneg 2 a). lia. Qed.
  Lemma tm_nonneg st : Forall node st -> 0 <= zsum (map (fun '(n, a, s) => 2 ^ (a + 1) - 1) st).
  Proof using. induction 1 as [|[[n a] s] st H _ IH]; [reflexivity|]. cbn [map]. rewrite zsum_cons. destruct H as (_ & H & _). pose proof (pow_ge1 (a + 1)). lia. Qed.

  Lemma special_add d a q s n : special_ok d -> 1 <= a <= c - 2 -> t < n -> q = x / n -> special_ok (dset d a (at_ d a ++ [(q, s)])).
  Proof using.
    intros (ND & K & E) Ha Hn ->. split; [apply dset_NoDup, ND|]. split.
    - intros b Hb. apply dkeys_dset_In in Hb as [Hb | ->]; auto.
    - intros b v s' Hb. unfold at_ at 1 in Hb. rewrite dget_dset in Hb. destruct (Z.eqb_spec a b) as [<- |]; [|apply (E b v s'); exact Hb].
      apply in_app_iff in Hb as [Hb|[Hb|[]]]; [apply (E a v s'); exact Hb|]. injection Hb as <- <-. eauto.
  Qed.

  Lemma tree_step T z : tinv T z -> match lmo_step x t ps z with
    | inl z' => tinv T z' /\ 0 <= tm z' < tm z
    | inr r => exists value d, r = Ret (value, d) /\ special_ok d /\ (forall k, 1 <= k <= c - 2 -> In k (dkeys d)) /\ value + ssum d = T
    end.
  Proof using HP Ht Hc Hx.
    destruct z as ((st, value), d). intros (Nd & Sp & Cv & E). pose proof c_range as (C1 & C2). unfold lmo_step. destruct st as [|[[n a] s] st].
    - exists value, d. split; [reflexivity|]. split; [exact Sp|]. split; [|unfold nsum in E; cbn [map] in E; rewrite zsum_nil in E; lia].
      intros k Hk. destruct (Cv k Hk) as [H|[H|[(? & ? & ? & H)|(? & ? & ? & H)]]]; [exact H|destruct H..].
    - pose proof (tm_nonneg _ Nd) as M. apply Forall_cons_iff in Nd as (N1 & N2). pose proof (tm_nonneg _ N2) as M2. destruct N1 as (Hn & Ha & Hs & Hac & Hac1). unfold tm. cbn [fst map] in *. unfold nsum in E. cbn [map] in E. rewrite zsum_cons in *. pose proof (pow_ge1 a ltac:(lia)) as PA. assert (PS : 2 ^ (a + 1) = 2 * 2 ^ a) by (rewrite Z.pow_add_r by lia; lia).
      assert (DV : pydiv x n = Ret (x / n)) by (unfold pydiv; destruct (Z.eqb_spec n 0); [lia|reflexivity]). rewrite DV.
      destruct ((a =? 1) && (n <=? t)) eqn:B1; [|destruct (Z.ltb_spec t n) as [L|L]].
      + apply andb_true_iff in B1 as (B1 & B2). apply Z.eqb_eq in B1. apply Z.leb_le in B2. subst a. split; [|cbn [fst map]; rewrite ?zsum_cons; lia]. repeat split.
        * exact N2.
        * apply Sp.
        * apply Sp; assumption.
        * apply Sp; assumption.
        * apply Sp.
        * intros k Hk. destruct (Cv k Hk) as [H|[[H|H]|[(a' & s' & A & [H|H])|(n' & s' & A & [H|H])]]]; [left; exact H|injection H; lia|right; left; exact H|injection H; lia|right; right; left; eauto|injection H; lia|right; right; right; eauto].
        * unfold nsum, ph in *. rewrite (Phi_two N) in E by (assumption || lia || (apply Z.div_pos; lia)). pose proof (eq_refl : sgn s = if 0 <? s then 1 else -1) as SE. destruct (0 <? s); rewrite SE in E; lia.
      + assert (Ha2 : a <= c - 2) by (destruct (Z.eq_dec a c); [lia|]; destruct (Z.eq_dec a (c - 1)); lia). split; [|cbn [fst map]; rewrite ?zsum_cons; lia]. fold (at_ d a). split; [exact N2|]. split; [apply (special_add d a (x / n) s n); auto; lia|]. split.
        * intros k Hk. destruct (Cv k Hk) as [H|[[H|H]|[(a' & s' & A & [H|H])|(n' & s' & A & [H|H])]]]; [left; apply dkeys_dset_In; left; exact H|injection H; lia|right; left; exact H|injection H as -> -> ->; lia|right; right; left; eauto| |right; right; right; eauto].
          injection H as -> -> ->. left. apply dkeys_dset_In. right. reflexivity.
        * rewrite ssum_add. unfold nsum. lia.
      + assert (A2 : 2 <= a) by (apply andb_false_iff in B1 as [B1|B1]; [apply Z.eqb_neq in B1; lia|apply Z.leb_gt in B1; lia]). rewrite (rd_get ps (a - 1)) by lia. pose proof (ps_ge2 N ps HP (a - 1) ltac:(lia)) as P2. set (p := rd ps (a - 1)) in *.
        split; [|cbn [fst map]; rewrite !zsum_cons; replace (a - 1 + 1) with a by lia; lia]. split; [|split; [exact Sp|split]].
        * constructor; [|constructor; [|exact N2]]; unfold node; (split; [nia|]); (split; [lia|]); (split; [lia|]); (split; [lia|]); intros E1; [|lia]. assert (a = c) by lia. rewrite Hac by assumption. unfold p. subst a. unfold pc in C2. lia.
        * intros k Hk. destruct (Cv k Hk) as [H|[[H|H]|[(a' & s' & A & [H|H])|(n' & s' & A & [H|H])]]].
          -- left; exact H.
          -- injection H as -> -> ->. right; right; left. exists (c - 1), (-(1)). split; [lia|]. left. unfold pc, p. rewrite Z.mul_1_l. reflexivity.
          -- right; left; right; right; exact H.
          -- injection H as -> -> ->. right; right. destruct (Z.eq_dec k (a' - 1)) as [-> |].
             ++ right. exists (pc * p), (- s'). split; [clear - C2 P2 Ht; nia|]. left. reflexivity.
             ++ left. exists (a' - 1), s'. split; [lia|]. right; left. reflexivity.
          -- right; right; left. exists a', s'. split; [exact A|]. right; right; exact H.
          -- injection H; lia.
          -- right; right; right. exists n', s'. split; [exact A|]. right; right; exact H.
        * unfold nsum. cbn [map]. rewrite !zsum_cons. rewrite (ph_step a) in E by (lia || (apply Z.div_pos; lia)). fold p in E. rewrite Zdiv.Zdiv_Zdiv in E by lia. rewrite sgn_opp by exact Hs. lia.
  Qed.

  Lemma tree_ok value : exists value' d, lmo_tree x t ps c value = Ret (value', d) /\ special_ok d /\ (forall k, 1 <= k <= c - 2 -> In k (dkeys d)) /\ value' + ssum d = value + ph c x.
  Proof using HP Ht Hc Hx.
    pose proof c_range as (C1 & C2). unfold lmo_tree.
    apply (run_rule (lmo_step x t ps) (tinv (value + ph c x)) tm (fun r => exists value' d, r = Ret (value', d) /\ special_ok d /\ (forall k, 1 <= k <= c - 2 -> In k (dkeys d)) /\ value' + ssum d = value + ph c x)).
    - apply tree_step.
    - split; [constructor; [|constructor]; unfold node; lia|]. split; [|split].
      + split; [constructor|]. split; [intros a []|]. intros a v s [].
      + intros k Hk. right. left. left. reflexivity.
      + unfold nsum, ssum. cbn [map]. rewrite zsum_cons, !zsum_nil. rewrite Z.div_1_r. unfold sgn. cbn [Z.ltb Z.compare]. lia.
    - unfold tm. cbn [fst map]. rewrite zsum_cons, zsum_nil. replace (Z.of_nat (Z.to_nat c + 4)) with (c + 1 + 3) by lia. pose proof (pow_ge1 (c + 1) ltac:(lia)). rewrite (Z.pow_add_r 2 (c + 1)) by lia. lia.
  Qed.

  Lemma keys_sorted d : special_ok d -> (forall k, 1 <= k <= c - 2 -> In k (dkeys d)) -> zsort (dkeys d) = zrange 1 (c - 1).
  Proof using.
    intros (ND & K & _) F. apply sorted_lt_ext; [apply zsort_strict, ND|apply zrange_sorted|]. intros k. rewrite zsort_In, zrange_In. split; [intros H; apply K in H; lia|intros H; apply F; lia].
  Qed.
  Lemma ssum_range d : special_ok d -> (forall k, 1 <= k <= c - 2 -> In k (dkeys d)) -> ssum d = Sum 1 (c - 1) (fun a => lsum a (at_ d a)).
  Proof using.
    intros S F. rewrite ssum_keys by apply S. unfold Sum. rewrite <- (keys_sorted d S F). assert (P : forall l l' : list Z, Permutation l l' -> zsum l = zsum l'). { induction 1; rewrite ?zsum_cons; lia. } apply P, Permutation_map, Permutation_sym, zsort_perm.
  Qed.
End tree.
