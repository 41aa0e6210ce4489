(** * The cost function and two_opt *)
From Coq Require Import ZArith List Bool Lia Permutation.
From Verif Require Import Base Py Sums TSP_Model TSP_Spec TSP_Proofs.
Import ListNotations.
Open Scope Z_scope.

Lemma pyget_last (l : list Z) : l <> [] -> pyget l (-1) = Ret (last l 0).
Proof.
  intros H. destruct (exists_last H) as (q & y & ->). rewrite last_last. unfold pyget, pyidx. rewrite app_length. cbn [length].
  change (0 <=? -1) with false. cbn [andb]. destruct (Z.leb_spec (- Z.of_nat (length q + 1)) (-1)); [|lia]. cbn [andb Z.ltb Z.compare].
  replace (Z.to_nat (-1 + Z.of_nat (length q + 1))) with (length q) by lia. rewrite nth_error_app2 by lia. rewrite Nat.sub_diag. reflexivity.
Qed.

Lemma pyget_first (l : list Z) : l <> [] -> pyget l 0 = Ret (hd 0 l).
Proof. intros H. rewrite (pyget_nth l 0 0); [destruct l; reflexivity|]. destruct l; [congruence|cbn [length]; lia]. Qed.

Section Mat.
  Context (n : Z) (d : Z -> Z -> Z) (D : list (list weight)).
  Hypothesis HD : distances n d D.

  Lemma entry_get i j : 0 <= i < n -> 0 <= j < n -> entry D i j = Ret (nth (Z.to_nat j) (nth (Z.to_nat i) D []) None).
  Proof using HD.
    intros Hi Hj. destruct HD as (H1 & H2 & _). unfold entry. rewrite (pyget_nth D i []) by lia. cbn [bind]. apply pyget_nth. rewrite (H2 i Hi). exact Hj.
  Qed.

  Lemma entry_ok i j : 0 <= i < n -> 0 <= j < n -> i <> j -> entry D i j = Ret (Some (d i j)).
  Proof using HD. intros Hi Hj N. rewrite (entry_get i j Hi Hj). destruct HD as (_ & _ & H). rewrite (H i j Hi Hj N). reflexivity. Qed.

  Lemma cost_loop p : forall t, NoDup p -> (forall x, In x p -> 0 <= x < n) ->
    foldM (fun total i => do x <- pyget p i; do y <- pyget p (i + 1); do w <- entry D x y; Ret (wadd total w)) (zrange 0 (Z.of_nat (length p) - 1)) (Some t) = Ret (Some (t + path_cost d p)).
  Proof using HD.
    intros t N R.
    assert (G : forall q1 q2 t, p = q1 ++ q2 -> q2 <> [] -> foldM (fun total i => do x <- pyget p i; do y <- pyget p (i + 1); do w <- entry D x y; Ret (wadd total w)) (zrange (Z.of_nat (length q1)) (Z.of_nat (length p) - 1)) (Some t) = Ret (Some (t + path_cost d q2))).
    { intros q1 q2. revert q1. induction q2 as [|x q2 IH]; intros q1 t0 E Hq; [congruence|]. destruct q2 as [|y q2].
      - rewrite zrange_nil by (rewrite E, app_length; cbn [length]; lia). cbn. do 2 f_equal. lia.
      - assert (Lp : length p = (length q1 + S (S (length q2)))%nat) by (rewrite E, app_length; reflexivity). rewrite zrange_cons by lia. cbn [foldM].
        rewrite (pyget_nth p _ 0) by lia. rewrite (pyget_nth p (Z.of_nat (length q1) + 1) 0) by lia. rewrite Nat2Z.id. replace (Z.to_nat (Z.of_nat (length q1) + 1)) with (S (length q1)) by lia.
        assert (E1 : nth (length q1) p 0 = x) by (rewrite E, app_nth2, Nat.sub_diag by lia; reflexivity).
        assert (E2 : nth (S (length q1)) p 0 = y) by (rewrite E, app_nth2 by lia; replace (S (length q1) - length q1)%nat with 1%nat by lia; reflexivity).
        rewrite E1, E2. cbn [bind]. rewrite entry_ok.
        + cbn [bind wadd]. specialize (IH (q1 ++ [x]) (t0 + d x y)). replace (Z.of_nat (length (q1 ++ [x]))) with (Z.of_nat (length q1) + 1) in IH by (rewrite app_length; cbn [length]; lia).
          rewrite IH; [|rewrite E, <- app_assoc; reflexivity|discriminate]. do 2 f_equal. change (path_cost d (x :: y :: q2)) with (d x y + path_cost d (y :: q2)). lia.
        + apply R. rewrite E. apply in_app_iff. right. left. reflexivity.
        + apply R. rewrite E. apply in_app_iff. right. right. left. reflexivity.
        + intros ->. rewrite E in N. apply NoDup_remove_2 in N. apply N. apply in_app_iff. right. left. reflexivity. }
    destruct p as [|x p]; [rewrite zrange_nil by (cbn; lia); cbn; do 2 f_equal; lia|]. apply (G [] (x :: p) t eq_refl). discriminate.
  Qed.

  Lemma NoDup_ends (p : list Z) : NoDup p -> (2 <= length p)%nat -> last p 0 <> hd 0 p.
  Proof using.
    intros N L. destruct p as [|x p]; [cbn in L; lia|]. destruct p as [|y p] using rev_ind; [cbn in L; lia|]. change (x :: p ++ [y]) with ((x :: p) ++ [y]). rewrite last_last. cbn [app hd]. intros ->. inversion N as [|? ? N1 _]. apply N1. apply in_app_iff. right. left. reflexivity.
  Qed.

  Lemma last_In (p : list Z) : p <> [] -> In (last p 0) p.
  Proof using. intros H. destruct (exists_last H) as (q & y & ->). rewrite last_last. apply in_app_iff. right. left. reflexivity. Qed.
  Lemma hd_In (p : list Z) : p <> [] -> In (hd 0 p) p.
  Proof using. destruct p; [congruence|left; reflexivity]. Qed.

  Lemma cost_ok p : NoDup p -> (forall x, In x p -> 0 <= x < n) -> (2 <= length p)%nat -> cost D p (Z.of_nat (length p)) = Ret (Some (tour_cost d p)).
  Proof using HD.
    intros N R L. assert (Hp : p <> []) by (intros ->; cbn in L; lia). unfold cost. rewrite (pyget_last p Hp), (pyget_first p Hp). cbn [bind].
    rewrite entry_ok; [|apply R, last_In, Hp|apply R, hd_In, Hp|apply NoDup_ends; assumption]. cbn [bind]. rewrite cost_loop by assumption. unfold tour_cost. do 2 f_equal. lia.
  Qed.

  Lemma tour_facts p : tour n p -> NoDup p /\ (forall x, In x p <-> 0 <= x < n) /\ length p = Z.to_nat n.
  Proof using.
    intros T. unfold tour in T. split; [apply (Permutation_NoDup (Permutation_sym T)), zrange_NoDup|]. split.
    - intros x. rewrite <- zrange_In. split; apply Permutation_in; [|symmetry]; exact T.
    - rewrite (Permutation_length T), zrange_length. f_equal. lia.
  Qed.

  Lemma cost_tour p : 2 <= n -> tour n p -> cost D p n = Ret (Some (tour_cost d p)).
  Proof using HD. intros Hn T. destruct (tour_facts p T) as (N & R & L). rewrite <- (cost_ok p N (fun x H => proj1 (R x) H)) by lia. f_equal. lia. Qed.

  Hypothesis Hsym : forall i j, 0 <= i < n -> 0 <= j < n -> d i j = d j i.
  Hypothesis Hn : 2 <= n.

  Lemma nth_split3 (p : list Z) i j : 0 <= i -> i + 2 <= j -> j < Z.of_nat (length p) ->
    exists A B C, p = A ++ B ++ C /\ Z.of_nat (length A) = i + 1 /\ Z.of_nat (length B) = j - i /\
      reverse_slice p i j = A ++ rev B ++ C.
  Proof using.
    intros Hi Hij Hj. unfold reverse_slice. set (a := Z.to_nat (i + 1)). set (b := Z.to_nat (j + 1)).
    exists (firstn a p), (skipn a (firstn b p)), (skipn b p). split; [|split; [|split; [|reflexivity]]].
    - rewrite app_assoc. rewrite <- (firstn_skipn b p) at 1. f_equal. rewrite <- (firstn_skipn a (firstn b p)) at 1. f_equal. rewrite firstn_firstn. f_equal. lia.
    - rewrite firstn_length. lia.
    - rewrite skipn_length, firstn_length. lia.
  Qed.

  (** The gain of an exchange is the difference of the costs. *)
  Lemma gain_ok p i j : tour n p -> 0 <= i -> i + 2 <= j -> j < n -> exists g, gain D n p i j = Ret (Some g) /\ tour_cost d (reverse_slice p i j) = tour_cost d p - g.
  Proof using All.
    intros T Hi Hij Hj. destruct (tour_facts p T) as (N & R & L). destruct (nth_split3 p i j Hi Hij ltac:(lia)) as (A & B & C & E & LA & LB & ->).
    assert (HA : A <> []) by (intros ->; cbn in LA; lia). assert (HB : B <> []) by (intros ->; cbn in LB; lia).
    assert (X1 : nth (Z.to_nat i) p 0 = last A 0). { rewrite E, app_nth1 by lia. destruct (exists_last HA) as (q & y & ->). rewrite last_last. rewrite app_length in LA. cbn [length] in LA. replace (Z.to_nat i) with (length q) by lia. rewrite app_nth2, Nat.sub_diag by lia. reflexivity. }
    assert (X2 : nth (Z.to_nat (i + 1)) p 0 = hd 0 B). { rewrite E, app_nth2 by lia. replace (Z.to_nat (i + 1) - length A)%nat with 0%nat by lia. destruct B; [congruence|reflexivity]. }
    assert (X3 : nth (Z.to_nat j) p 0 = last B 0). { rewrite E, app_nth2 by lia. rewrite app_nth1 by lia. destruct (exists_last HB) as (q & y & ->). rewrite last_last. rewrite app_length in LB. cbn [length] in LB. replace (Z.to_nat j - length A)%nat with (length q) by lia. rewrite app_nth2, Nat.sub_diag by lia. reflexivity. }
    assert (X4 : nth (Z.to_nat ((j + 1) mod n)) p 0 = hd 0 (C ++ A)).
    { assert (LC : Z.of_nat (length C) = n - j - 1) by (apply (f_equal (@length Z)) in E; rewrite !app_length in E; lia). destruct C as [|c C].
      - cbn [length] in LC. replace (j + 1) with n by lia. rewrite Z.mod_same by lia. rewrite E. destruct A; [congruence|reflexivity].
      - cbn [length] in LC. rewrite Z.mod_small by lia. rewrite E, app_nth2, app_nth2 by lia. replace (Z.to_nat (j + 1) - length A - length B)%nat with 0%nat by lia. reflexivity. }
    assert (Hm : 0 <= (j + 1) mod n < n) by (apply Z.mod_pos_bound; lia).
    assert (Lp : Z.of_nat (length p) = n) by lia.
    unfold gain. rewrite (pyget_nth p i 0) by lia. rewrite (Z.mod_small (i + 1)) by lia. rewrite (pyget_nth p (i + 1) 0) by lia. rewrite (pyget_nth p j 0) by lia. rewrite (pyget_nth p ((j + 1) mod n) 0) by lia. cbn [bind].
    assert (RR : forall k, 0 <= k < n -> 0 <= nth (Z.to_nat k) p 0 < n) by (intros k Hk; apply R, nth_In; lia).
    assert (NN : forall k k', 0 <= k < n -> 0 <= k' < n -> k <> k' -> nth (Z.to_nat k) p 0 <> nth (Z.to_nat k') p 0). { intros k k' Hk Hk' Nk Eq. apply (proj1 (NoDup_nth p 0) N) in Eq; lia. }
    assert (M1 : j <> (j + 1) mod n). { destruct (Z.eq_dec (j + 1) n) as [->|]; [rewrite Z.mod_same by lia; lia|rewrite Z.mod_small by lia; lia]. }
    assert (M2 : i + 1 <> (j + 1) mod n). { destruct (Z.eq_dec (j + 1) n) as [->|]; [rewrite Z.mod_same by lia; lia|rewrite Z.mod_small by lia; lia]. }
    rewrite !entry_ok by (try (apply RR; lia); apply NN; lia). cbn [bind wadd wsub]. eexists. split; [reflexivity|].
    rewrite exchange; [|intros x y Hx Hy; apply Hsym; apply R; rewrite E; apply in_app_iff; right; apply in_app_iff; left; assumption|exact HA|exact HB]. rewrite <- E, <- X1, <- X2, <- X3, <- X4. lia.
  Qed.

  Lemma reverse_tour p i j : tour n p -> 0 <= i -> i + 2 <= j -> j < n -> tour n (reverse_slice p i j).
  Proof using Hn.
    intros T Hi Hij Hj. destruct (tour_facts p T) as (N & R & L). destruct (nth_split3 p i j Hi Hij ltac:(lia)) as (A & B & C & E & LA & LB & ->).
    unfold tour in *. rewrite <- T, E. apply Permutation_app_head, Permutation_app_tail. symmetry. apply Permutation_rev.
  Qed.

  Lemma best_gain_ok p : tour n p -> exists g i j, best_gain D n p = Ret (Some g, i, j) /\ 0 <= g /\
    (g = 0 \/ (0 <= i /\ i + 2 <= j < n /\ tour_cost d (reverse_slice p i j) = tour_cost d p - g)) /\
    forall i' j', 0 <= i' -> i' + 2 <= j' < n -> tour_cost d p - g <= tour_cost d (reverse_slice p i' j').
  Proof using All.
    intros T. unfold best_gain.
    set (OK := fun (i j : Z) (s : weight * Z * Z) => exists g, fst (fst s) = Some g /\ 0 <= g /\ (g = 0 \/ (0 <= snd (fst s) /\ snd (fst s) + 2 <= snd s < n /\ tour_cost d (reverse_slice p (snd (fst s)) (snd s)) = tour_cost d p - g)) /\
      forall i' j', 0 <= i' -> i' + 2 <= j' < n -> i' < i \/ (i' = i /\ j' < j) -> tour_cost d p - g <= tour_cost d (reverse_slice p i' j')).
    destruct (foldM_range (fun s i => foldM (fun '(g0, i0, j0) j => do g <- gain D n p i j; Ret (if wltb g0 g then (g, i, j) else (g0, i0, j0))) (zrange (i + 2) n) s) (fun i s => OK i 0 s) 0 n (Some 0, 0, 0)) as (s & E & H).
    - lia.
    - exists 0. cbn [fst snd]. split; [reflexivity|]. split; [lia|]. split; [left; reflexivity|]. intros i' j' H1 H2 H3. lia.
    - intros i s Hi Hs. assert (Conv : forall s, OK i n s -> OK (i + 1) 0 s). { intros s0 (g & A & B & C & F). exists g. split; [exact A|]. split; [exact B|]. split; [exact C|]. intros i' j' Q1 Q2 Q3. apply F; [exact Q1|exact Q2|]. lia. }
      destruct (Z_le_gt_dec (i + 2) n) as [Le|Gt].
      + destruct (foldM_range (fun '(g0, i0, j0) j => do g <- gain D n p i j; Ret (if wltb g0 g then (g, i, j) else (g0, i0, j0))) (OK i) (i + 2) n s Le) as (s' & E' & H').
        * destruct Hs as (g & A & B & C & F). exists g. split; [exact A|]. split; [exact B|]. split; [exact C|]. intros i' j' Q1 Q2 Q3. apply F; [exact Q1|exact Q2|lia].
        * intros j [[g0 i0] j0] Hj (g & A & B & C & F). cbn [fst snd] in *. destruct (gain_ok p i j T ltac:(lia) ltac:(lia) ltac:(lia)) as (g1 & Eg & Hg). rewrite Eg. cbn [bind]. eexists. split; [reflexivity|]. subst g0. cbn [wltb].
          destruct (Z.ltb_spec g g1).
          -- exists g1. cbn [fst snd]. split; [reflexivity|]. split; [lia|]. split; [right; split; [lia|]; split; [lia|exact Hg]|]. intros i' j' Q1 Q2 Q3. destruct (Z.eq_dec i' i) as [->|]; [destruct (Z.eq_dec j' j) as [->|]; [lia|]|]; specialize (F _ _ Q1 Q2 ltac:(lia)); lia.
          -- exists g. cbn [fst snd]. split; [reflexivity|]. split; [lia|]. split; [exact C|]. intros i' j' Q1 Q2 Q3. destruct (Z.eq_dec i' i) as [->|]; [destruct (Z.eq_dec j' j) as [->|]; [lia|]|]; specialize (F _ _ Q1 Q2 ltac:(lia)); lia.
        * exists s'. split; [exact E'|]. apply Conv, H'.
      + rewrite zrange_nil by lia. exists s. split; [reflexivity|]. apply Conv. destruct Hs as (g & A & B & C & F). exists g. split; [exact A|]. split; [exact B|]. split; [exact C|]. intros i' j' Q1 Q2 Q3. apply F; [exact Q1|exact Q2|lia].
    - rewrite E. destruct s as [[g0 i0] j0]. destruct H as (g & A & B & C & F). cbn [fst snd] in *. subst g0. exists g, i0, j0. split; [reflexivity|]. split; [exact B|]. split; [exact C|]. intros i' j' Q1 Q2. apply F; [exact Q1|exact Q2|lia].
  Qed.

  (** All exchanges, from the ones that are tried. *)
  Lemma local_opt p : tour n p -> (forall i j, 0 <= i -> i + 2 <= j < n -> tour_cost d p <= tour_cost d (reverse_slice p i j)) ->
    forall A B C, p = A ++ B ++ C -> tour_cost d p <= tour_cost d (A ++ rev B ++ C).
  Proof using All.
    intros T H. destruct (tour_facts p T) as (N & R & L). assert (S : forall q, incl q p -> forall x y, In x q -> In y q -> d x y = d y x) by (intros q Hq x y Hx Hy; apply Hsym; apply R, Hq; assumption).
    assert (G : forall A B C, A <> [] -> p = A ++ B ++ C -> tour_cost d p <= tour_cost d (A ++ rev B ++ C)).
    { intros A B C HA E. destruct B as [|b B]; [rewrite E; apply Z.le_refl|]. destruct B as [|b' B]; [rewrite E; apply Z.le_refl|]. set (B0 := b :: b' :: B) in *.
      assert (LA : (1 <= length A)%nat) by (destruct A; [congruence|cbn; lia]). assert (LB : (2 <= length B0)%nat) by (cbn; lia). assert (LL : (length A + length B0 + length C = Z.to_nat n)%nat) by (rewrite <- L, E, !app_length; lia).
      specialize (H (Z.of_nat (length A) - 1) (Z.of_nat (length A + length B0) - 1) ltac:(lia) ltac:(lia)).
      assert (Er : reverse_slice p (Z.of_nat (length A) - 1) (Z.of_nat (length A + length B0) - 1) = A ++ rev B0 ++ C).
      { unfold reverse_slice. replace (Z.to_nat (Z.of_nat (length A) - 1 + 1)) with (length A) by lia. replace (Z.to_nat (Z.of_nat (length A + length B0) - 1 + 1)) with (length A + length B0)%nat by lia.
        rewrite E. rewrite firstn_app, Nat.sub_diag, firstn_all. cbn [firstn]. rewrite app_nil_r. f_equal. f_equal.
        - f_equal. rewrite (app_assoc A B0 C), firstn_app, app_length, Nat.sub_diag. cbn [firstn]. rewrite app_nil_r, <- app_length, firstn_all. rewrite skipn_app, Nat.sub_diag, skipn_all. reflexivity.
        - rewrite (app_assoc A B0 C), <- app_length, skipn_app, Nat.sub_diag, skipn_all. reflexivity. }
      rewrite Er in H. exact H. }
    intros A B C E. destruct A as [|a A]; [|apply G; [discriminate|exact E]]. cbn [app] in *. destruct B as [|b B]; [rewrite E; apply Z.le_refl|].
    specialize (G (b :: B) C [] ltac:(discriminate)). rewrite !app_nil_r in G. specialize (G E). rewrite tour_cost_rotate. rewrite <- (tour_cost_rev d ((b :: B) ++ rev C)) in G.
    - rewrite rev_app_distr, rev_involutive in G. exact G.
    - apply S. rewrite E. intros x [Hx|Hx]%in_app_iff; apply in_app_iff; [left; exact Hx|right; apply in_rev; exact Hx].
  Qed.

  Lemma improve_ok p0 : tour n p0 -> exists fuel0, forall fuel, (fuel0 <= fuel)%nat -> exists p, run (two_opt_step D n) fuel (Some (tour_cost d p0), p0) = Ret (Some (tour_cost d p), p) /\ tour n p /\ tour_cost d p <= tour_cost d p0 /\
    forall A B C, p = A ++ B ++ C -> tour_cost d p <= tour_cost d (A ++ rev B ++ C).
  Proof using All.
    set (B := zsum (map (fun i => zsum (map (fun j => Z.abs (d i j)) (zrange 0 n))) (zrange 0 n))).
    assert (Nn : forall l, (forall x, In x l -> 0 <= x) -> 0 <= zsum l /\ forall x, In x l -> x <= zsum l).
    { induction l as [|a l IH]; intros Hl; [split; [cbn; lia|intros x []]|]. rewrite zsum_cons. destruct IH as [I1 I2]; [intros x Hx; apply Hl; right; exact Hx|]. assert (0 <= a) by (apply Hl; left; reflexivity). split; [lia|]. intros x [<-|Hx]; [lia|specialize (I2 x Hx); lia]. }
    assert (N1 : forall i, 0 <= zsum (map (fun j => Z.abs (d i j)) (zrange 0 n))). { intros i. refine (proj1 (Nn _ _)). intros x Hx. apply in_map_iff in Hx as (j & <- & _). lia. }
    assert (HB : forall i j, 0 <= i < n -> 0 <= j < n -> - B <= d i j).
    { intros i j Hi Hj. assert (Z.abs (d i j) <= zsum (map (fun j => Z.abs (d i j)) (zrange 0 n))). { refine (proj2 (Nn _ _) _ _); [intros x Hx; apply in_map_iff in Hx as (k & <- & _); lia|]. apply in_map_iff. exists j. split; [reflexivity|apply zrange_In; exact Hj]. }
      assert (zsum (map (fun j => Z.abs (d i j)) (zrange 0 n)) <= B). { refine (proj2 (Nn _ _) _ _); [intros x Hx; apply in_map_iff in Hx as (k & <- & _); apply N1|]. apply in_map_iff. exists i. split; [reflexivity|apply zrange_In; exact Hi]. } lia. }
    assert (B0 : 0 <= B). { refine (proj1 (Nn _ _)). intros x Hx. apply in_map_iff in Hx as (k & <- & _). apply N1. }
    assert (Low : forall p, tour n p -> - (n * B) <= tour_cost d p). { intros p T. destruct (tour_facts p T) as (_ & R & L). assert (X := cost_lower d B p). replace (Z.of_nat (length p)) with n in X by lia. apply X; [intros x y Hx Hy; apply HB; apply R; assumption|exact B0|intros ->; cbn in L; lia]. }
    intros T0.
    set (M := fun s : weight * list Z => tour_cost d (snd s) + n * B).
    exists (bits (M (Some 0, p0))). intros fuel Hf.
    apply (run_rule (two_opt_step D n) (fun s => tour n (snd s) /\ fst s = Some (tour_cost d (snd s)) /\ tour_cost d (snd s) <= tour_cost d p0) M (fun r => exists p, r = Ret (Some (tour_cost d p), p) /\ tour n p /\ tour_cost d p <= tour_cost d p0 /\ forall A B C, p = A ++ B ++ C -> tour_cost d p <= tour_cost d (A ++ rev B ++ C))).
    - intros [c p] (T & Ec & Hc). cbn [fst snd] in *. subst c. unfold two_opt_step. destruct (best_gain_ok p T) as (g & i & j & E & G0 & G1 & G2). rewrite E. cbn [wltb]. destruct (Z.ltb_spec 0 g).
      + destruct G1 as [G1|(Hi & Hj & Eg)]; [lia|]. assert (T' : tour n (reverse_slice p i j)) by (apply reverse_tour; [exact T|lia|lia|lia]). cbn [wsub fst snd]. rewrite Eg. split; [split; [exact T'|]; split; [reflexivity|lia]|]. unfold M. cbn [snd]. specialize (Low _ T'). lia.
      + exists p. split; [reflexivity|]. split; [exact T|]. split; [exact Hc|]. apply local_opt; [exact T|]. intros i' j' Q1 Q2. specialize (G2 i' j' Q1 Q2). lia.
    - cbn [fst snd]. split; [exact T0|]. split; [reflexivity|lia].
    - pose proof (bits_spec (M (Some 0, p0))) as X. unfold M in *. cbn [snd] in *. eapply Z.lt_le_trans; [exact X|]. apply Z.pow_le_mono_r; lia.
  Qed.

  Lemma two_opt_ok : exists fuel0, forall fuel, (fuel0 <= fuel)%nat -> exists p, two_opt D fuel n = Ret (Some (tour_cost d p), p) /\ tour n p /\ tour_cost d p <= tour_cost d (zrange 0 n) /\
    forall A B C, p = A ++ B ++ C -> tour_cost d p <= tour_cost d (A ++ rev B ++ C).
  Proof using All.
    assert (T0 : tour n (zrange 0 n)) by (unfold tour; reflexivity). destruct (improve_ok _ T0) as (f0 & H). exists f0. intros fuel Hf. unfold two_opt. rewrite (cost_tour _ Hn T0). cbn [bind]. apply H, Hf.
  Qed.
End Mat.
