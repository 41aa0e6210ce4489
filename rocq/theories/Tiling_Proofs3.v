(** * Domino tilings in coordinates; triomino tilings and transposition *)
From Coq Require Import ZArith List Bool Lia Sorting.Sorted Sorting.Permutation.
From Verif Require Import Base Lists2 Count Tiling_Model Tiling_Spec Tiling_Proofs Tiling_Proofs2.
Import ListNotations.
Open Scope Z_scope.

Lemma before_irr a : ~ before a a. Proof. unfold before. lia. Qed.
Lemma before_trans a b c : before a b -> before b c -> before a c. Proof. unfold before. lia. Qed.
Lemma before_tot a b : before a b \/ a = b \/ before b a.
Proof.
  destruct a as [a1 a2], b as [b1 b2]. unfold before. cbn [fst snd].
  destruct (Z.eq_dec a1 b1), (Z.eq_dec a2 b2); subst; auto; lia.
Qed.

Lemma StronglySorted_map {A B} (f : A -> B) (R : A -> A -> Prop) (S : B -> B -> Prop) l :
  (forall x y, In x l -> In y l -> R x y -> S (f x) (f y)) -> StronglySorted R l -> StronglySorted S (map f l).
Proof.
  intros H X. revert H. induction X as [|x l X IH F]; intros H; cbn [map]; constructor.
  - apply IH. intros a b Ha Hb. apply H; right; assumption.
  - rewrite Forall_forall in *. intros y Hy. apply in_map_iff in Hy as (z & <- & Hz). apply H; [left; reflexivity|right; exact Hz|apply F, Hz].
Qed.

Section Coord.
  Context (m n : Z).
  Hypothesis Hm : 0 <= m.
  Hypothesis Hn : 1 <= n.

  Definition dec (x : Z) : rc := (x / n, x mod n).
  Definition enc (c : rc) : Z := fst c * n + snd c.
  Definition onb (c : rc) : Prop := 0 <= fst c < m /\ 0 <= snd c < n.

  Lemma enc_dec x : enc (dec x) = x.
  Proof. unfold enc, dec. cbn [fst snd]. rewrite (Z.div_mod x n) at 3 by lia. lia. Qed.

  Lemma dec_enc c : 0 <= snd c < n -> dec (enc c) = c.
  Proof.
    destruct c as [i j]. unfold enc, dec. cbn [fst snd]. intros H. f_equal.
    - rewrite Z.div_add_l by lia. rewrite Z.div_small by lia. lia.
    - rewrite Z.add_comm, Z.mod_add by lia. apply Z.mod_small. lia.
  Qed.

  Lemma dec_onb x : 0 <= x < m * n -> onb (dec x).
  Proof.
    intros H. unfold onb, dec. cbn [fst snd]. split; [split|].
    - apply Z.div_pos; lia.
    - apply Z.div_lt_upper_bound; lia.
    - apply Z.mod_pos_bound. lia.
  Qed.

  Lemma enc_range c : onb c -> 0 <= enc c < m * n.
  Proof.
    destruct c as [i j]. unfold onb, enc. cbn [fst snd]. intros (H & H'). split; [nia|].
    assert (i * n <= (m - 1) * n) by (apply Z.mul_le_mono_nonneg_r; lia). lia.
  Qed.

  Lemma dec_before x y : x < y -> before (dec x) (dec y).
  Proof.
    intros H. unfold before, dec. cbn [fst snd]. pose proof (Z.div_mod x n) as A. pose proof (Z.div_mod y n) as B.
    assert (x / n <= y / n) by (apply Z.div_le_mono; lia). destruct (Z.eq_dec (x / n) (y / n)) as [E|E]; [right|left; lia].
    split; [exact E|]. rewrite E in A. lia.
  Qed.

  Lemma enc_before a b : onb a -> onb b -> before a b -> enc a < enc b.
  Proof.
    destruct a as [i j], b as [i' j']. unfold onb, before, enc. cbn [fst snd]. intros A B [H|[H H']]; [|subst; lia].
    assert ((i + 1) * n <= i' * n) by (apply Z.mul_le_mono_nonneg_r; lia). lia.
  Qed.

  Lemma dec_down a : dec (a + n) = (fst (dec a) + 1, snd (dec a)).
  Proof.
    unfold dec. cbn [fst snd]. replace (a + n) with (a + 1 * n) by lia. rewrite Z.div_add, Z.mod_add by lia. reflexivity.
  Qed.

  Lemma dec_right a : (a + 1) mod n <> 0 -> dec (a + 1) = (fst (dec a), snd (dec a) + 1).
  Proof.
    intros H. unfold dec. cbn [fst snd]. pose proof (Z.div_mod a n ltac:(lia)) as A. pose proof (Z.mod_pos_bound a n ltac:(lia)) as B.
    assert (C : a mod n + 1 < n).
    { destruct (Z.eq_dec (a mod n + 1) n) as [E|E]; [|lia]. exfalso. apply H.
      replace (a + 1) with (0 + (a / n + 1) * n) by lia. rewrite Z.mod_add by lia. apply Z.mod_0_l. lia. }
    f_equal.
    - symmetry. apply (Z.div_unique _ _ _ (a mod n + 1)); lia.
    - symmetry. apply (Z.mod_unique _ _ (a / n)); lia.
  Qed.

  Lemma ispd_domino p : ispd n p -> domino (map dec p).
  Proof.
    intros (a & Ha & [-> | [-> H]]); cbn [map].
    - exists (dec a), (dec (a + n)). split; [reflexivity|]. split; [apply dec_before; lia|].
      rewrite dec_down. unfold adjacent. cbn [fst snd]. lia.
    - exists (dec a), (dec (a + 1)). split; [reflexivity|]. split; [apply dec_before; lia|].
      rewrite dec_right by exact H. unfold adjacent. cbn [fst snd]. lia.
  Qed.

  Lemma domino_ispd p : domino p -> (forall c, In c p -> onb c) -> ispd n (map enc p).
  Proof.
    intros ([i j] & [i' j'] & -> & B & A) H. cbn [map].
    pose proof (H (i, j) ltac:(left; reflexivity)) as O1. pose proof (H (i', j') ltac:(right; left; reflexivity)) as O2.
    unfold onb, before, adjacent, enc in *. cbn [fst snd] in *. exists (i * n + j). split; [nia|].
    destruct B as [B|[B B']].
    - left. assert (i' = i + 1) as -> by lia. assert (j' = j) as -> by lia. f_equal. f_equal. lia.
    - right. subst i'. assert (j' = j + 1) as -> by lia. split; [f_equal; f_equal; lia|].
      replace (i * n + j + 1) with (j + 1 + i * n) by lia. rewrite Z.mod_add by lia. rewrite Z.mod_small by lia. lia.
  Qed.

  Lemma concat_map_map {A B} (f : A -> B) T : concat (map (map f) T) = map f (concat T).
  Proof. symmetry. apply concat_map. Qed.

  Lemma domino_coord v : number_of (tiling 0 Z.lt (ispd n) (zrange 0 (m * n))) v -> number_of (is_tiling domino m n) v.
  Proof.
    apply (number_of_bij _ _ (map (map dec)) (map (map enc))).
    - intros T (A & B & P). split; [split; [|split; [|split]]|].
      + rewrite Forall_forall in *. intros q Hq. apply in_map_iff in Hq as (p & <- & Hp). apply ispd_domino, A, Hp.
      + revert B. apply StronglySorted_map. intros p q Hp Hq L.
        replace (hd (0, 0) (map dec p)) with (dec (hd 0 p)); [replace (hd (0, 0) (map dec q)) with (dec (hd 0 q)); [apply dec_before, L|]|].
        * destruct q; [|reflexivity]. cbn. unfold dec. rewrite Z.div_0_l, Z.mod_0_l by lia. reflexivity.
        * destruct p; [|reflexivity]. cbn. unfold dec. rewrite Z.div_0_l, Z.mod_0_l by lia. reflexivity.
      + rewrite concat_map_map. apply NoDup_map_inj.
        * eapply Permutation_NoDup; [apply Permutation_sym, P|apply zrange_NoDup].
        * intros x y _ _ E. rewrite <- (enc_dec x), <- (enc_dec y), E. reflexivity.
      + intros c. rewrite concat_map_map, in_map_iff. split.
        * intros (x & <- & Hx). apply dec_onb. apply (Permutation_in x P) in Hx. apply zrange_In in Hx. exact Hx.
        * intros Hc. exists (enc c). split; [apply dec_enc, Hc|]. eapply Permutation_in; [apply Permutation_sym, P|].
          apply zrange_In. apply enc_range, Hc.
      + rewrite map_map. rewrite <- (map_id T) at 2. apply map_ext. intros p. rewrite map_map. rewrite <- (map_id p) at 2.
        apply map_ext. apply enc_dec.
    - intros T (A & B & N & I). rewrite Forall_forall in A.
      assert (Hon : forall p c, In p T -> In c p -> onb c).
      { intros p c Hp Hc. apply I. apply in_concat. exists p. auto. }
      assert (Hhd : forall p, In p T -> In (hd (0, 0) p) p).
      { intros p Hp. destruct (A p Hp) as (a & b & -> & _). left. reflexivity. }
      split; [split; [|split]|].
      + rewrite Forall_forall. intros q Hq. apply in_map_iff in Hq as (p & <- & Hp). apply domino_ispd; [apply A, Hp|].
        intros c. apply Hon, Hp.
      + revert B. apply StronglySorted_map. intros p q Hp Hq L.
        replace (hd 0 (map enc p)) with (enc (hd (0, 0) p)); [replace (hd 0 (map enc q)) with (enc (hd (0, 0) q))|].
        * apply enc_before; [apply (Hon p); auto|apply (Hon q); auto|exact L].
        * destruct q; reflexivity.
        * destruct p; reflexivity.
      + rewrite concat_map_map. apply NoDup_same_perm.
        * apply NoDup_map_inj; [exact N|]. intros x y Hx Hy E. apply I in Hx. apply I in Hy.
          rewrite <- (dec_enc x), <- (dec_enc y), E by lia. reflexivity.
        * apply zrange_NoDup.
        * intros x. rewrite in_map_iff, zrange_In. split.
          -- intros (c & <- & Hc). apply enc_range, I, Hc.
          -- intros H. exists (dec x). split; [apply enc_dec|]. apply I. apply dec_onb, H.
      + rewrite map_map. rewrite <- (map_id T) at 2. apply map_ext_in. intros p Hp. rewrite map_map. rewrite <- (map_id p) at 2.
        apply map_ext_in. intros c Hc. apply dec_enc. apply (Hon p c Hp Hc).
  Qed.
End Coord.

Lemma number_of_domino_tilings_ok ord m n : dperm ord -> 1 <= m -> 1 <= n ->
  exists v, number_of_domino_tilings ord m n = Ret v /\ number_of (is_tiling domino m n) v.
Proof.
  intros Ho Hm Hn. assert (0 < m * n) by nia. unfold number_of_domino_tilings.
  destruct (dom_backtrack_ok m n Hn ord Ho (S (Z.to_nat (m * n))) ([], O) [] (zrange 0 (m * n))) as (v & st & E & _ & V).
  - rewrite zrange_length. lia.
  - apply zrange_NoDup.
  - rewrite zrange_cons by lia. discriminate.
  - intros x. rewrite zrange_In. cbn [In]. tauto.
  - intros x [].
  - intros tc tu v [].
  - rewrite E. exists v. split; [reflexivity|]. revert V. apply domino_coord; lia.
Qed.

(** ** Triominoes *)
Lemma cell_eqb_eq a b : cell_eqb a b = true <-> a = b.
Proof.
  destruct a as [a1 a2], b as [b1 b2]. unfold cell_eqb. cbn [fst snd]. rewrite andb_true_iff, !Z.eqb_eq.
  split; [intros (-> & ->); reflexivity|intros [= -> ->]; auto].
Qed.

Lemma cell_ltb_lt a b : cell_ltb a b = true <-> before a b.
Proof. unfold cell_ltb, before. rewrite orb_true_iff, andb_true_iff, !Z.ltb_lt, Z.eqb_eq. reflexivity. Qed.

Lemma triomino_len p : triomino p -> length p = 3%nat.
Proof. intros (a & b & c & -> & _). reflexivity. Qed.

Lemma triomino_sorted p : triomino p -> StronglySorted before p.
Proof. 
  intros (a & b & c & -> & A & B & _). pose proof (before_trans _ _ _ A B) as D.
  apply SSorted_cons; [apply SSorted_cons; [apply SSorted_cons; [apply SSorted_nil|]|]|]; repeat (apply Forall_cons || apply Forall_nil); assumption.
Qed.

Definition norm3 (c : list cell) : list cell :=
  match c with [x; y; z] => if cell_ltb z y then [x; z; y] else c | _ => c end.

Lemma adj_next a b : before a b -> adjacent a b -> b = (fst a, snd a + 1) \/ b = (fst a + 1, snd a).
Proof.
  destruct a as [i j], b as [k l]. unfold before, adjacent. cbn [fst snd]. intros [H|[H H']] A.
  - right. f_equal; lia.
  - left. f_equal; lia.
Qed.

Lemma triomino_shapes p i j : triomino p -> hd (0, 0) p = (i, j) -> In p (map norm3 (next_pieces (i, j))).
Proof.
  intros (a & b & c & -> & A & B & H) E. cbn [hd] in E. subst a.
  replace (map norm3 (next_pieces (i, j))) with
    [ [(i, j); (i, j + 1); (i + 1, j)]; [(i, j); (i, j + 1); (i + 1, j + 1)]; [(i, j); (i + 1, j); (i + 1, j + 1)];
      [(i, j); (i + 1, j - 1); (i + 1, j)]; [(i, j); (i, j + 1); (i, j + 2)]; [(i, j); (i + 1, j); (i + 2, j)] ].
  2:{ cbn [next_pieces map norm3].
      assert (F : forall x y, before x y -> cell_ltb y x = false).
      { intros x y Hxy. destruct (cell_ltb y x) eqn:E; [|reflexivity]. apply cell_ltb_lt in E. exfalso.
        apply (before_irr x). eapply before_trans; eauto. }
      assert (G : forall x y, before x y -> cell_ltb x y = true) by (intros; apply cell_ltb_lt; assumption).
      rewrite (F (i, j + 1) (i + 1, j)), (F (i, j + 1) (i + 1, j + 1)), (F (i + 1, j) (i + 1, j + 1)),
        (G (i + 1, j - 1) (i + 1, j)), (F (i, j + 1) (i, j + 2)), (F (i + 1, j) (i + 2, j));
        unfold before; cbn [fst snd]; try lia. reflexivity. }
  destruct H as [(H1 & H2)|[(H1 & H2)|(H1 & H2)]].
  - apply (adj_next _ _ A) in H1. apply (adj_next _ _ B) in H2. cbn [fst snd] in *.
    destruct H1 as [-> | ->], H2 as [-> | ->]; cbn [fst snd].
    + replace (j + 1 + 1) with (j + 2) by lia. cbn; auto 10.
    + cbn; auto 10.
    + cbn; auto 10.
    + replace (i + 1 + 1) with (i + 2) by lia. cbn; auto 10.
  - apply (adj_next _ _ A) in H1. apply adj_next in H2; [|eapply before_trans; eauto]. cbn [fst snd] in *.
    destruct H1 as [-> | ->], H2 as [-> | ->]; unfold before in B; cbn [fst snd] in B; try lia. cbn; auto 10.
  - apply adj_next in H1; [|eapply before_trans; eauto]. cbn [fst snd] in *.
    destruct b as [k l]. destruct H1 as [-> | ->]; unfold before, adjacent in *; cbn [fst snd] in *; [lia|].
    assert (k = i + 1) as -> by lia. assert (l = j - 1) as -> by lia. cbn; auto 10.
Qed.

Lemma shapes_triomino c i j : In c (next_pieces (i, j)) -> triomino (norm3 c) /\ hd (0, 0) (norm3 c) = (i, j).
Proof.
  intros H. cbn [next_pieces In] in H.
  assert (X : forall x y z, triomino (if cell_ltb z y then [x; z; y] else [x; y; z]) -> triomino (norm3 [x; y; z])) by (intros; assumption).
  assert (F : forall x y, before x y -> cell_ltb y x = false).
  { intros x y Hxy. destruct (cell_ltb y x) eqn:E; [|reflexivity]. apply cell_ltb_lt in E. exfalso.
    apply (before_irr x). eapply before_trans; eauto. }
  assert (T : forall a b c, before a b -> before b c -> 
    ((adjacent a b /\ adjacent b c) \/ (adjacent a b /\ adjacent a c) \/ (adjacent a c /\ adjacent b c)) -> triomino [a; b; c]).
  { intros a b c' A B D. exists a, b, c'. auto. }
  destruct H as [<-|[<-|[<-|[<-|[<-|[<-|[]]]]]]]; cbn [norm3].
  4: rewrite (proj2 (cell_ltb_lt _ _)) by (unfold before; cbn [fst snd]; lia).
  1-3,5-6: rewrite F by (unfold before; cbn [fst snd]; lia).
  all: split; [|reflexivity]; apply T; unfold before, adjacent; cbn [fst snd]; lia.
Qed.

Lemma norm3_In c x : In x (norm3 c) <-> In x c.
Proof. destruct c as [|a [|b [|e [|f g]]]]; cbn [norm3]; try reflexivity. destruct (cell_ltb e b); cbn [In]; tauto. Qed.

Lemma norm3_NoDup i j : NoDup (map norm3 (next_pieces (i, j))).
Proof.
  assert (F : forall x y, before x y -> cell_ltb y x = false).
  { intros x y Hxy. destruct (cell_ltb y x) eqn:E; [|reflexivity]. apply cell_ltb_lt in E. exfalso.
    apply (before_irr x). eapply before_trans; eauto. }
  assert (G : forall x y, before x y -> cell_ltb x y = true) by (intros; apply cell_ltb_lt; assumption).
  cbn [next_pieces map norm3].
  rewrite (F (i, j + 1) (i + 1, j)), (F (i, j + 1) (i + 1, j + 1)), (F (i + 1, j) (i + 1, j + 1)),
        (G (i + 1, j - 1) (i + 1, j)), (F (i, j + 1) (i, j + 2)), (F (i + 1, j) (i + 2, j));
        unfold before; cbn [fst snd]; try lia.
  repeat constructor; cbn [In]; intros H; repeat (destruct H as [H|H]); try contradiction; injection H; intros; lia.
Qed.

Section Triomino.
  Context (ord : nat -> list cell -> list cell).
  Hypothesis Hord : dperm ord.

  Notation tiling3 := (tiling (0, 0) before triomino).

  Definition tInv (st : tstate (K := list cell)) : Prop :=
    forall tu v, In (tu, v) (fst st) -> number_of (tiling3 tu) v.

  Lemma filter_pieces (g : list cell -> bool) l : map snd (filter fst (map (fun p => (g p, p)) l)) = filter g l.
  Proof. induction l as [|x l IH]; [reflexivity|]. cbn [map filter fst]. destruct (g x); cbn [map snd]; rewrite IH; reflexivity. Qed.

  Lemma filter_sub_NoDup {A B} (f : A -> B) g l : NoDup (map f l) -> NoDup (map f (filter g l)).
  Proof.
    induction l as [|x l IH]; [auto|]. cbn [map filter]. inversion_clear 1 as [|? ? N1 N2].
    destruct (g x); [|auto]. cbn [map]. constructor; [|auto]. intros H. apply N1.
    apply in_map_iff in H as (y & E & Hy). apply filter_In in Hy. apply in_map_iff. exists y. tauto.
  Qed.

  Lemma tri_backtrack_ok : forall fuel st unc, (length unc < fuel)%nat -> NoDup unc -> unc <> [] -> tInv st ->
    exists v st', tri_backtrack ord fuel st unc = Ret (v, st') /\ tInv st' /\ number_of (tiling3 unc) v.
  Proof.
    induction fuel as [|fuel IH]; intros [D c] unc Hf N Hne I; [lia|].
    cbn [tri_backtrack].
    destruct (lookup (listeqb cell_eqb) D (ord c unc)) as [v|] eqn:El.
    { exists v, (D, S c). split; [reflexivity|]. split; [exact I|].
      apply lookup_In in El; [|intros a b; apply listeqb_eq; intros x y; apply cell_eqb_eq]. apply I in El. revert El.
      apply number_of_ext. intros T. apply tiling_perm. apply Hord. }
    destruct (cmin_spec cell_ltb before cell_ltb_lt before_trans before_tot unc Hne) as ([i j] & Er & Hr & Hmin).
    rewrite Er. cbn [bind]. remember (next_pieces (i, j)) as np eqn:Enp.
    match goal with |- context [try_pieces _ ?rec ?cs _ ?st _] =>
      destruct (step_ok (0, 0) cell_eqb before cell_eqb_eq before_irr before_trans triomino 3 ltac:(lia) triomino_len triomino_sorted
        norm3 tInv rec unc (i, j) cs st N Hr Hmin) as (res & st' & E & I' & R) end.
    - rewrite filter_pieces. apply filter_sub_NoDup. rewrite Enp. apply norm3_NoDup.
    - intros b q _ x. apply norm3_In.
    - assert (Hsup : forall q, forallb (fun x => cmem cell_eqb x unc) q = true <-> incl q unc).
      { intros q. rewrite forallb_forall. split; intros H x Hx; [apply (cmem_In cell_eqb cell_eqb_eq)|apply cmem_In; [apply cell_eqb_eq|]]; auto. }
      intros p. split.
      + intros (Tp & Hh & Hi). apply triomino_shapes in Hh as Hs; [|exact Tp].
        apply in_map_iff in Hs as (q & <- & Hq). exists q. split; [|reflexivity]. apply in_map_iff. exists q. rewrite <- Enp in Hq.
        split; [|exact Hq]. f_equal. apply Hsup. intros x Hx. apply Hi. apply norm3_In, Hx.
      + intros (q & Hq & ->). apply in_map_iff in Hq as (q' & Hq & Hin). injection Hq as Hb ->. rewrite Enp in Hin.
        destruct (shapes_triomino q i j Hin) as (S1 & S2). split; [exact S1|]. split; [exact S2|].
        intros x Hx. apply (proj1 (Hsup q) Hb). apply norm3_In, Hx.
    - exact I.
    - intros st1 q Hq I1 Hnil. cbn beta. apply IH.
      + apply Nat.lt_le_trans with (length unc); [|apply Nat.lt_succ_r, Hf].
        apply difference_shorter with (r := (i, j)); [apply cell_eqb_eq|exact N|exact Hr|].
        apply in_map_iff in Hq as (q' & Hq & Hin). injection Hq as Hb ->. rewrite Enp in Hin. cbn [next_pieces In] in Hin.
        destruct Hin as [<-|[<-|[<-|[<-|[<-|[<-|[]]]]]]]; left; reflexivity.
      + apply difference_NoDup; apply N.
      + exact Hnil.
      + exact I1.
    - rewrite E. cbn [bind]. destruct res as [s|v].
      + exists s. eexists. split; [reflexivity|]. split; [|exact R].
        intros tu v [Hk|Hk]; [|apply (I' tu v Hk)]. injection Hk as <- <-.
        revert R. apply number_of_ext. intros T. apply tiling_perm. symmetry. apply Hord.
      + exists v, st'. split; [reflexivity|]. split; [exact I'|exact R].
  Qed.
End Triomino.
