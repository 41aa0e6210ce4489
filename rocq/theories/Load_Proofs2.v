(** * Reading graphs from files *)
From Coq Require Import Ascii String DecimalString DecimalZ ZArith List Bool Lia.
From Verif Require Import Base Py Dict Graph_Model Graph_Spec Graph_Proofs Graph_Proofs2 Repr_Spec Repr_Proofs Load_Spec Load_Model Load_Proofs.
Import ListNotations.
Open Scope Z_scope.

Lemma mapM_int l : (exists r, mapM int_of l = Ret r /\ Forall2 numeral l r) \/ (mapM int_of l = Raise ValueError /\ exists s, In s l /\ forall z, ~ numeral s z).
Proof.
  induction l as [|x l IH]; [left; exists []; split; constructor|]. cbn [mapM]. destruct (int_of x) as [y|e|] eqn:E.
  - destruct IH as [(r & -> & F)|(-> & s & Hs & N)].
    + left. exists (y :: r). split; [reflexivity|constructor; [apply int_of_iff, E|exact F]].
    + right. split; [reflexivity|]. exists s. split; [right; exact Hs|exact N].
  - right. assert (N : forall z, ~ numeral x z) by (intros z H; apply int_of_iff in H; congruence). rewrite (int_of_error x N) in E. injection E as <-.
    split; [reflexivity|]. exists x. split; [left; reflexivity|exact N].
  - assert (N : forall z, ~ numeral x z) by (intros z H; apply int_of_iff in H; congruence). rewrite (int_of_error x N) in E. discriminate.
Qed.

Lemma split_two t s s' : split_spaces t = [s; s'] <-> t = s ++ " "%char :: s' /\ word s /\ word s'.
Proof.
  split.
  - intros E. destruct (split_spaces_inv t) as [(_ & E')|(a & t' & -> & Ha & E')]; rewrite E' in E; [discriminate|]. injection E as -> E.
    destruct (split_spaces_inv t') as [(H & E2)|(b & t2 & -> & Hb & E2)]; rewrite E2 in E.
    + injection E as ->. auto.
    + injection E as _ E. destruct (split_spaces_inv t2) as [(_ & E3)|(c & t3 & _ & _ & E3)]; rewrite E3 in E; discriminate.
  - intros (-> & Hs & Hs'). unfold split_spaces. rewrite split_space by exact Hs. rewrite split_word by exact Hs'. reflexivity.
Qed.

Lemma read_pair_cases ws : (exists s t u v, ws = [s; t] /\ numeral s u /\ numeral t v /\ read_pair ws = Ret (u, v)) \/
  (read_pair ws = Raise ValueError /\ forall s t u v, ws = [s; t] -> numeral s u -> numeral t v -> False).
Proof.
  unfold read_pair. destruct (mapM_int ws) as [(r & -> & F)|(-> & s0 & Hs & N)]; cbn [bind].
  - destruct F as [|s u ws r Hu F]; [right; split; [reflexivity|discriminate]|].
    destruct F as [|t v ws r Hv F]; [right; split; [reflexivity|discriminate]|].
    destruct F as [|x w ws r Hw F]; [|right; split; [reflexivity|discriminate]].
    left. exists s, t, u, v. auto.
  - right. split; [reflexivity|]. intros s t u v -> Hu Hv. destruct Hs as [<-|[<-|[]]]; eapply N; eassumption.
Qed.

Lemma numeral_fun s u u' : numeral s u -> numeral s u' -> u = u'.
Proof. intros H H'. apply int_of_iff in H, H'. congruence. Qed.

Lemma read_pair_line l uv : read_pair (split_spaces l) = Ret uv <-> pair_line l uv.
Proof.
  destruct (read_pair_cases (split_spaces l)) as [(s & t & u & v & E & Hu & Hv & ->)|(-> & N)].
  - apply split_two in E as (-> & Hs & Ht). split.
    + intros X. injection X as <-. exists s, t. auto.
    + destruct uv as [u' v']. intros (s' & t' & E & Hs' & Ht' & Hu' & Hv'). cbn [fst snd] in *.
      assert (X : [s; t] = [s'; t']) by (transitivity (split_spaces (s ++ " "%char :: t)); [symmetry; apply split_two; auto|rewrite E; apply split_two; auto]).
      injection X as <- <-. rewrite (numeral_fun _ _ _ Hu Hu'), (numeral_fun _ _ _ Hv Hv'). reflexivity.
  - split; [discriminate|]. intros (s & t & E & Hs & Ht & Hu & Hv). exfalso. refine (N s t _ _ _ Hu Hv). apply split_two. auto.
Qed.
Lemma read_pair_error l : (forall uv, ~ pair_line l uv) -> read_pair (split_spaces l) = Raise ValueError.
Proof.
  intros H. destruct (read_pair_cases (split_spaces l)) as [(s & t & u & v & _ & _ & _ & E)|(E & _)]; [|exact E].
  apply read_pair_line in E. destruct (H _ E).
Qed.

(** ** The graph *)
Lemma add_edge_graph_of g u v es : undirected g -> graph_of (vertex g) (weight g) es ->
  undirected (add_edge g u v 1) /\ graph_of (vertex (add_edge g u v 1)) (weight (add_edge g u v 1)) (es ++ [(u, v)]).
Proof.
  intros U (HV & HW & H1). destruct (apply_op_ok g (OpAddEdge u v 1) U) as (U' & EV & EW). cbn [apply_op] in *. split; [exact U'|].
  assert (D : forall x y, same_pair u v x y \/ ~ same_pair u v x y) by (intros x y; unfold same_pair; lia).
  split; [|split].
  - intros x. rewrite EV, HV. split.
    + intros [(y & [H|H])|[->| ->]]; [exists y; left|exists y; right|exists v; left|exists u; right]; apply in_or_app; cbn; auto.
    + intros (y & [H|H]); apply in_app_or in H as [H|[H|[]]]; try (left; exists y; auto; fail); injection H as <- <-; auto.
  - intros x y. destruct (EW x y) as (E1 & E2). destruct (D x y) as [P|P].
    + rewrite (E1 P). split; [intros _|reflexivity]. destruct P as [(-> & ->)|(-> & ->)]; [left|right]; apply in_or_app; right; left; reflexivity.
    + rewrite (E2 P), HW. split; [intros [H|H]; [left|right]; apply in_or_app; left; exact H|].
      intros [H|H]; apply in_app_or in H as [H|[H|[]]]; auto; injection H as <- <-; exfalso; apply P; [left|right]; split; reflexivity.
  - intros x y w. destruct (EW x y) as (E1 & E2). destruct (D x y) as [P|P]; [rewrite (E1 P); congruence|rewrite (E2 P); apply H1].
Qed.

Lemma empty_graph_of : undirected empty_graph /\ graph_of (vertex empty_graph) (weight empty_graph) [].
Proof.
  split; [split; [constructor|split; [intros u a []|split; [intros u v (w & E); discriminate|reflexivity]]]|].
  split; [intros x; split; [intros []|intros (y & [[]|[]])]|split; [intros x y; split; [discriminate|intros [[]|[]]]|discriminate]].
Qed.

Lemma load_ok ls es : Forall2 pair_line ls es -> forall g0 es0, undirected g0 -> graph_of (vertex g0) (weight g0) es0 ->
  exists g, foldM (fun g line => do '(u, v) <- read_pair (split_spaces line); Ret (add_edge g u v 1)) ls g0 = Ret g /\
    undirected g /\ graph_of (vertex g) (weight g) (es0 ++ es).
Proof.
  induction 1 as [|l [u v] ls es Hl F IH]; intros g0 es0 U G; [exists g0; rewrite app_nil_r; auto|].
  cbn [foldM]. rewrite (proj2 (read_pair_line l (u, v)) Hl). cbn [bind].
  destruct (add_edge_graph_of g0 u v es0 U G) as (U' & G'). destruct (IH _ _ U' G') as (g & E & U'' & G''). exists g. rewrite <- app_assoc in G''. auto.
Qed.

Lemma load_error l ls : In l ls -> (forall uv, ~ pair_line l uv) -> forall g0,
  foldM (fun g line => do '(u, v) <- read_pair (split_spaces line); Ret (add_edge g u v 1)) ls g0 = Raise ValueError.
Proof.
  intros Hl N. induction ls as [|l' ls IH]; [destruct Hl|]. intros g0. cbn [foldM].
  destruct (read_pair_cases (split_spaces l')) as [(s & t & u & v & _ & _ & _ & E)|(E & _)]; rewrite E; cbn [bind]; [|reflexivity].
  destruct Hl as [->|Hl]; [apply read_pair_line in E; destruct (N _ E)|]. apply IH, Hl.
Qed.

Lemma edge_line_tl l : forall h l', l = "e"%char :: h ++ " "%char :: l' -> word h -> tl (split_spaces l) = split_spaces l'.
Proof.
  intros h l' -> Hh. unfold split_spaces. change ("e"%char :: h ++ " "%char :: l') with (("e"%char :: h) ++ " "%char :: l').
  rewrite split_space by (intros [X|X]; [discriminate|exact (Hh X)]). reflexivity.
Qed.

Lemma read_edge_line l uv : starts "e" l = true -> (read_pair (tl (split_spaces l)) = Ret uv <-> edge_line l uv).
Proof.
  intros S. apply starts_true in S as (l0 & ->). destruct (first_space l0) as [H|(h & l' & -> & H)].
  - unfold split_spaces. rewrite split_word by (intros [X|X]; [discriminate|exact (H X)]). cbn [tl]. split; [discriminate|].
    intros (h & l' & E & _). injection E as ->. exfalso. apply H, in_or_app. right. left. reflexivity.
  - rewrite (edge_line_tl _ h l' eq_refl H), read_pair_line. split; [intros P; exists h, l'; auto|].
    intros (h2 & l2 & E & Hh2 & P). injection E as E.
    assert (X : h :: split_spaces l' = h2 :: split_spaces l2).
    { transitivity (split_spaces (h ++ " "%char :: l')); [symmetry; apply (split_space h l' [] H)|rewrite E; apply (split_space h2 l2 [] Hh2)]. }
    injection X as -> _. apply app_inv_head in E. injection E as ->. exact P.
Qed.
Lemma read_edge_error l : starts "e" l = true -> (forall uv, ~ edge_line l uv) -> read_pair (tl (split_spaces l)) = Raise ValueError.
Proof.
  intros S N. destruct (read_pair_cases (tl (split_spaces l))) as [(s & t & u & v & _ & _ & _ & E)|(E & _)]; [|exact E].
  apply (read_edge_line l _ S) in E. destruct (N _ E).
Qed.

Lemma dimacs_ok ls es : dimacs_edges ls es -> forall g0 es0, undirected g0 -> graph_of (vertex g0) (weight g0) es0 ->
  exists g, foldM (fun g line => if starts "e" line then do '(u, v) <- read_pair (tl (split_spaces line)); Ret (add_edge g u v 1) else Ret g) ls g0 = Ret g /\
    undirected g /\ graph_of (vertex g) (weight g) (es0 ++ es).
Proof.
  induction 1 as [|l ls es Hl D IH|l [u v] ls es Hl D IH]; intros g0 es0 U G; [exists g0; rewrite app_nil_r; auto| |]; cbn [foldM].
  - rewrite starts_false by exact Hl. cbn [bind]. apply IH; assumption.
  - assert (S : starts "e" l = true) by (apply starts_true; destruct Hl as (h & l' & -> & _); eauto). rewrite S.
    rewrite (proj2 (read_edge_line l (u, v) S) Hl). cbn [bind].
    destruct (add_edge_graph_of g0 u v es0 U G) as (U' & G'). destruct (IH _ _ U' G') as (g & E & U'' & G''). exists g. rewrite <- app_assoc in G''. auto.
Qed.

Lemma dimacs_error l ls : In l ls -> ~ comment_line l -> (forall uv, ~ edge_line l uv) -> forall g0,
  foldM (fun g line => if starts "e" line then do '(u, v) <- read_pair (tl (split_spaces line)); Ret (add_edge g u v 1) else Ret g) ls g0 = Raise ValueError.
Proof.
  intros Hl C N. induction ls as [|l' ls IH]; [destruct Hl|]. intros g0. cbn [foldM]. destruct (starts "e" l') eqn:S.
  - destruct (read_pair_cases (tl (split_spaces l'))) as [(s & t & u & v & _ & _ & _ & E)|(E & _)]; rewrite E; cbn [bind]; [|reflexivity].
    destruct Hl as [->|Hl]; [apply (read_edge_line l _ S) in E; destruct (N _ E)|]. apply IH, Hl.
  - cbn [bind]. destruct Hl as [->|Hl]; [|apply IH, Hl]. exfalso. apply C. intros l' ->. cbn [starts] in S. rewrite aeqb_refl in S. discriminate.
Qed.

(** ** The numerals that str writes *)
Lemma digit_at (k : nat) : (k < 10)%nat -> forall c, nth_error (txt "0123456789") k = Some c -> digit_is c (Z.of_nat k).
Proof. intros H c E. split; [rewrite Nat2Z.id; exact E|lia]. Qed.

Lemma digits_push s n c d m : digits s n -> digit_is c d -> m = 10 * n + d -> digits (s ++ [c]) m.
Proof. intros H Hd ->. apply digits_more; assumption. Qed.

Ltac digit_tac k := apply (digit_at k); [lia|reflexivity].

Lemma uint_acc_digits d : forall p acc, digits p (Zpos acc) -> digits (p ++ txt (NilEmpty.string_of_uint d)) (Zpos (Pos.of_uint_acc d acc)).
Proof.
  induction d as [|d IH|d IH|d IH|d IH|d IH|d IH|d IH|d IH|d IH|d IH]; intros p acc H;
    [change (txt (NilEmpty.string_of_uint Decimal.Nil)) with (@nil ascii); rewrite app_nil_r; exact H| | | | | | | | | |];
    cbn [NilEmpty.string_of_uint Pos.of_uint_acc];
    match goal with |- digits (p ++ txt (String ?c ?s)) _ => change (txt (String c s)) with ([c] ++ txt s) end; rewrite app_assoc; apply IH;
    (eapply digits_push; [exact H| |]).
  - digit_tac 0%nat.
  - lia.
  - digit_tac 1%nat.
  - lia.
  - digit_tac 2%nat.
  - lia.
  - digit_tac 3%nat.
  - lia.
  - digit_tac 4%nat.
  - lia.
  - digit_tac 5%nat.
  - lia.
  - digit_tac 6%nat.
  - lia.
  - digit_tac 7%nat.
  - lia.
  - digit_tac 8%nat.
  - lia.
  - digit_tac 9%nat.
  - lia.
Qed.

Lemma digits_cons_acc c s k (acc : positive) d : s = NilEmpty.string_of_uint d -> digit_is c k -> k = Zpos acc ->
  digits (txt (String c s)) (Zpos (Pos.of_uint_acc d acc)).
Proof. intros -> Hc ->. apply (uint_acc_digits d [c] acc). constructor. exact Hc. Qed.

Lemma of_uint_digits0 d : forall p, digits p 0 -> digits (p ++ txt (NilEmpty.string_of_uint d)) (Z.of_N (Pos.of_uint d)).
Proof.
  induction d as [|d IH|d IH|d IH|d IH|d IH|d IH|d IH|d IH|d IH|d IH]; intros p H;
    [change (txt (NilEmpty.string_of_uint Decimal.Nil)) with (@nil ascii); rewrite app_nil_r; exact H| | | | | | | | | |];
    cbn [NilEmpty.string_of_uint Pos.of_uint Z.of_N];
    match goal with |- digits (p ++ txt (String ?c ?s)) _ => change (txt (String c s)) with ([c] ++ txt s) end; rewrite app_assoc;
    [apply IH|apply uint_acc_digits..]; (eapply digits_push; [exact H| |]).
  - digit_tac 0%nat.
  - lia.
  - digit_tac 1%nat.
  - lia.
  - digit_tac 2%nat.
  - lia.
  - digit_tac 3%nat.
  - lia.
  - digit_tac 4%nat.
  - lia.
  - digit_tac 5%nat.
  - lia.
  - digit_tac 6%nat.
  - lia.
  - digit_tac 7%nat.
  - lia.
  - digit_tac 8%nat.
  - lia.
  - digit_tac 9%nat.
  - lia.
Qed.

Lemma of_uint_digits d : digits (txt (NilZero.string_of_uint d)) (Z.of_N (Pos.of_uint d)).
Proof.
  destruct d as [|d|d|d|d|d|d|d|d|d|d]; cbn [NilZero.string_of_uint NilEmpty.string_of_uint Pos.of_uint Z.of_N].
  - constructor. digit_tac 0%nat.
  - apply (of_uint_digits0 d ["0"%char]). constructor. digit_tac 0%nat.
  - eapply digits_cons_acc; [reflexivity|digit_tac 1%nat|reflexivity].
  - eapply digits_cons_acc; [reflexivity|digit_tac 2%nat|reflexivity].
  - eapply digits_cons_acc; [reflexivity|digit_tac 3%nat|reflexivity].
  - eapply digits_cons_acc; [reflexivity|digit_tac 4%nat|reflexivity].
  - eapply digits_cons_acc; [reflexivity|digit_tac 5%nat|reflexivity].
  - eapply digits_cons_acc; [reflexivity|digit_tac 6%nat|reflexivity].
  - eapply digits_cons_acc; [reflexivity|digit_tac 7%nat|reflexivity].
  - eapply digits_cons_acc; [reflexivity|digit_tac 8%nat|reflexivity].
  - eapply digits_cons_acc; [reflexivity|digit_tac 9%nat|reflexivity].
Qed.

Lemma str_signed z : signed (str z) z.
Proof.
  unfold str. pose proof (DecimalZ.of_to z) as E. destruct (Z.to_int z) as [d|d]; cbn [Z.of_int] in E; rewrite <- E; unfold Z.of_uint.
  - apply signed_none. apply of_uint_digits.
  - unfold NilZero.string_of_int, txt. cbn [list_ascii_of_string]. apply signed_minus. apply of_uint_digits.
Qed.

Lemma str_numeral z b : Forall blank b -> numeral (str z ++ b) z.
Proof. intros H. exists [], (str z), b. repeat split; [constructor|exact H|apply str_signed]. Qed.

Lemma str_chars z x : In x (str z) -> x <> " "%char /\ x <> LF /\ x <> CR.
Proof.
  intros H. destruct (str_numchars z) as (F & _). rewrite Forall_forall in F. destruct (F x H) as [D| ->]; [|repeat split; discriminate].
  repeat split; apply (digit_not x _ D); cbn; tauto.
Qed.

Lemma pair_text_line u v : pair_line (str u ++ txt " " ++ str v ++ [LF]) (u, v).
Proof.
  exists (str u), (str v ++ [LF]). split; [reflexivity|]. split; [intros H; apply str_chars in H; tauto|]. split.
  - intros H. apply in_app_or in H as [H|[H|[]]]; [apply str_chars in H; tauto|discriminate].
  - cbn [fst snd]. split; [|apply str_numeral; constructor; [cbn; tauto|constructor]]. rewrite <- (app_nil_r (str u)). apply str_numeral. constructor.
Qed.

Lemma plain_app a b : plain a -> plain b -> plain (a ++ b).
Proof. intros (A1 & A2) (B1 & B2). split; intros H; apply in_app_or in H as [H|H]; tauto. Qed.
Lemma str_plain z : plain (str z).
Proof. split; intros H; apply str_chars in H; tauto. Qed.
Lemma space_plain : plain (txt " ").
Proof. split; intros [H|[]]; discriminate. Qed.
Lemma e_plain : plain (txt "e ").
Proof. split; intros [H|[H|[]]]; discriminate. Qed.

Lemma pairs_file_lines es : file_lines (pairs_file es) (map (fun uv => str (fst uv) ++ txt " " ++ str (snd uv) ++ [LF]) es).
Proof.
  induction es as [|[u v] es IH]; [constructor|]. unfold pairs_file. cbn [map List.concat fst snd].
  replace ((str u ++ txt " " ++ str v ++ [LF]) ++ _) with ((str u ++ txt " " ++ str v) ++ LF :: pairs_file es) by (rewrite <- !app_assoc; reflexivity).
  replace (str u ++ txt " " ++ str v ++ [LF]) with ((str u ++ txt " " ++ str v) ++ [LF]) by (rewrite <- !app_assoc; reflexivity).
  apply lines_lf; [|exact IH]. apply plain_app; [apply str_plain|apply plain_app; [apply space_plain|apply str_plain]].
Qed.
Lemma dimacs_file_lines es : file_lines (dimacs_file es) (map (fun uv => txt "e " ++ str (fst uv) ++ txt " " ++ str (snd uv) ++ [LF]) es).
Proof.
  induction es as [|[u v] es IH]; [constructor|]. unfold dimacs_file. cbn [map List.concat fst snd].
  replace ((txt "e " ++ str u ++ txt " " ++ str v ++ [LF]) ++ _) with ((txt "e " ++ str u ++ txt " " ++ str v) ++ LF :: dimacs_file es)
    by (rewrite <- !app_assoc; reflexivity).
  replace (txt "e " ++ str u ++ txt " " ++ str v ++ [LF]) with ((txt "e " ++ str u ++ txt " " ++ str v) ++ [LF]) by (rewrite <- !app_assoc; reflexivity).
  apply lines_lf; [|exact IH]. apply plain_app; [apply e_plain|]. apply plain_app; [apply str_plain|apply plain_app; [apply space_plain|apply str_plain]].
Qed.
Lemma pairs_file_pairs es : Forall2 pair_line (map (fun uv => str (fst uv) ++ txt " " ++ str (snd uv) ++ [LF]) es) es.
Proof. induction es as [|[u v] es IH]; constructor; [apply pair_text_line|exact IH]. Qed.
Lemma dimacs_file_edges es : dimacs_edges (map (fun uv => txt "e " ++ str (fst uv) ++ txt " " ++ str (snd uv) ++ [LF]) es) es.
Proof.
  induction es as [|[u v] es IH]; cbn [map]; constructor; [|exact IH]. exists [], (str u ++ txt " " ++ str v ++ [LF]). split; [reflexivity|].
  split; [exact (fun H => H)|apply pair_text_line].
Qed.

(** The edges of a graph determine it, if the weights are 1 and no vertex is isolated. *)
Lemma edges_graph_of g : undirected g -> (forall x y w, weight g x y = Some w -> w = 1) -> (forall x, vertex g x -> exists y, edge g x y) ->
  graph_of (vertex g) (weight g) (edge_set g).
Proof.
  intros U H1 HI. pose proof U as (_ & _ & HN & HS). apply undirected_wfd in U as Hw.
  assert (HE : forall x y, edge g x y <-> In (x, y) (edge_set g) \/ In (y, x) (edge_set g)).
  { intros x y. rewrite !edge_set_In by exact Hw. unfold edge. rewrite (HS y x). split; [|tauto]. intros H. destruct (Z.le_ge_cases x y); tauto. }
  split; [|split; [|exact H1]].
  - intros x. split.
    + intros H. destruct (HI x H) as (y & E). exists y. apply HE, E.
    + intros (y & H). apply HE in H. apply (HN y x). destruct H as (w & E). exists w. rewrite <- E. apply HS.
  - intros x y. rewrite <- HE. split; [intros E; exists 1; exact E|]. intros (w & E). rewrite E. rewrite (H1 _ _ _ E). reflexivity.
Qed.

Lemma graph_of_unique V W V' W' es : graph_of V W es -> graph_of V' W' es -> (forall x, V x <-> V' x) /\ (forall x y, W x y = W' x y).
Proof.
  intros (A & B & C) (A' & B' & C'). split; [intros x; rewrite A, A'; tauto|]. intros x y.
  destruct (W x y) as [w|] eqn:E.
  - pose proof (C _ _ _ E). subst. apply B in E. apply B' in E. congruence.
  - destruct (W' x y) as [w|] eqn:E'; [|reflexivity]. pose proof (C' _ _ _ E'). subst. apply B' in E'. apply B in E'. congruence.
Qed.
