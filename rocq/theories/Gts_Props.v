(** * C93: the genetic search for short tours *)
From Coq Require Import ZArith List Bool Lia Sorting.Permutation.
From Verif Require Import Base Py Sums Gts_Spec Gts_Model Gts_Proofs Gts_Proofs2 Gts_Proofs3.
Import ListNotations.
Open Scope Z_scope.

(** In exact arithmetic the cost of a tour is its length. *)
Theorem C93_cost : forall n dist p, 0 < n -> (forall x y, dist x y = dist y x) -> tour n p -> cost n dist Z.add p = Ret (tour_length n dist p).
Proof. intros. apply cost_exact; assumption. Qed.

(** Whatever floating point arithmetic does: if two_opt ends, it returns a tour and its cost, and no exchange it looks for
    is left: for every edge (x, y) of the tour and every z among the 20 points nearest to y that is nearer to y than x is,
    replacing the edges (x, y) and (w, z) by (y, z) and (x, w) gains no more than eps. *)
Theorem C93_two_opt : forall n dist fadd fsub eps fuel p, 0 < n -> tour n p ->
  two_opt n dist fadd fsub eps fuel p = Diverge \/
  exists c q, two_opt n dist fadd fsub eps fuel p = Ret (c, q) /\ tour n q /\ cost n dist fadd q = Ret c /\
    forall i k, 0 <= i < n -> 0 <= k < n ->
      let x := at_ n q i in let y := at_ n q (i + 1) in let w := at_ n q (k - 1) in let z := at_ n q k in
      among_nearest n dist (Z.min n 20) y z -> dist y z < dist x y ->
      fsub (fsub (fadd (dist x y) (dist w z)) (dist y z)) (dist x w) <= eps.
Proof.
  intros n dist fadd fsub eps fuel p N T. destruct (two_opt_sound n dist fadd fsub eps fuel p N T) as [E|(c & q & E & Tq & C & O)]; [left; exact E|right]. exists c, q. split; [exact E|]. split; [exact Tq|]. split; [exact C|]. intros i k Hi Hk x y w z A L. apply (O i k Hi Hk A L).
Qed.

(** In exact arithmetic it ends, within as many rounds as [fuel] says, and the tour is not longer than the given one. *)
Theorem C93_two_opt_ends : forall n dist eps fuel p, 0 < n -> (forall x y, dist x y = dist y x) -> (forall x y, 0 <= dist x y) -> 0 <= eps ->
  tour n p -> (n + 1) * tour_length n dist p + n < 2 ^ Z.of_nat fuel ->
  exists q, two_opt n dist Z.add Z.sub eps fuel p = Ret (tour_length n dist q, q) /\ tour n q /\ tour_length n dist q <= tour_length n dist p.
Proof.
  intros n dist eps fuel p N Sy Nn E T F. destruct (two_opt_ends n dist eps N Sy Nn E fuel p T F) as (q & R & Tq & _ & L). exists q. auto.
Qed.

(** A child takes h successive points of one parent, and then the other points in the order of the other parent. It is a
    tour. *)
Theorem C93_child : forall n h j P1 P2, 0 < n -> 0 <= h <= n -> tour n P1 -> tour n P2 ->
  let taken := map (fun t => at_ n P1 (t + j)) (zrange 0 h) in
  let c := taken ++ filter (fun x => negb (existsb (Z.eqb x) taken)) P2 in
  child n h j P1 P2 = Ret c /\ tour n c.
Proof.
  intros n h j P1 P2 N H T1 T2 taken c. split; [apply child_ok; assumption|apply (child_parts n N h j P1 P2); assumption].
Qed.

(** The two children of two tours are tours, with their costs, whatever the arithmetic. *)
Theorem C93_mgkrec : forall n dist fadd fsub eps fuel h j1 j2 A B, 20 <= n -> 10 <= h <= n / 2 -> tour n A -> tour n B ->
  mgkrec n dist fadd fsub eps fuel h j1 j2 A B = Diverge \/
  exists c1 p1 c2 p2, mgkrec n dist fadd fsub eps fuel h j1 j2 A B = Ret ((c1, p1), (c2, p2)) /\
    tour n p1 /\ cost n dist fadd p1 = Ret c1 /\ tour n p2 /\ cost n dist fadd p2 = Ret c2.
Proof.
  intros n dist fadd fsub eps fuel h j1 j2 A B N H TA TB. destruct (mgkrec_ok n dist fadd fsub eps ltac:(lia) fuel h j1 j2 A B N H TA TB) as [(E & _)|((c1 & p1) & (c2 & p2) & E & (G1 & G1') & (G2 & G2') & _)]; [left; exact E|right]. exists c1, p1, c2, p2. auto.
Qed.

(** The initial population. *)
Theorem C93_select : forall n dist fadd fsub eps fuel shuffle popsize, 0 < n -> (forall i, tour n (shuffle i)) ->
  select n dist fadd fsub eps fuel shuffle popsize = Diverge \/
  exists pop, select n dist fadd fsub eps fuel shuffle popsize = Ret pop /\
    Forall2 (fun i '(c, p) => two_opt n dist fadd fsub eps fuel (shuffle i) = Ret (c, p) /\ tour n p /\ cost n dist fadd p = Ret c) (zrange 0 popsize) pop.
Proof.
  intros n dist fadd fsub eps fuel shuffle popsize N Sh. destruct (select_ok n dist fadd fsub eps N fuel shuffle popsize Sh) as [(E & _)|(pop & E & F)]; [left; exact E|right]. exists pop. split; [exact E|]. clear - F. induction F as [|i (c & p) l pop (T & G & G') F IH]; constructor; [cbn in *; auto|exact IH].
Qed.

(** With at least 20 points and a population that is not empty the search ends if two_opt does. The cost it reports is the
    cost of a tour and not more than those of the initial population. If it is one of those, the tour is the second
    component; otherwise the second component is a list [cost, tour], and this cost is not less than the one reported. *)
Theorem C93_solve : forall n dist fadd fsub eps inf fuel shuffle draw popsize cmax, 20 <= n -> 1 <= popsize ->
  (forall p c, tour n p -> cost n dist fadd p = Ret c -> c < inf) ->
  (forall i, tour n (shuffle i)) -> (forall c i, 10 <= fst (fst (draw c i)) <= n / 2) ->
  (solve n dist fadd fsub eps inf fuel shuffle draw popsize cmax = Diverge /\ exists p, tour n p /\ two_opt n dist fadd fsub eps fuel p = Diverge) \/
  exists best X, solve n dist fadd fsub eps inf fuel shuffle draw popsize cmax = Ret (best, X) /\
    (exists q, tour n q /\ cost n dist fadd q = Ret best) /\
    (forall i c p, 0 <= i < popsize -> two_opt n dist fadd fsub eps fuel (shuffle i) = Ret (c, p) -> best <= c) /\
    ((exists p, X = Path p /\ tour n p /\ cost n dist fadd p = Ret best /\
        exists i q, 0 <= i < popsize /\ two_opt n dist fadd fsub eps fuel (shuffle i) = Ret (best, q)) \/
     (exists c p, X = Cost_and_path c p /\ tour n p /\ cost n dist fadd p = Ret c /\ best <= c /\
        forall i c p, 0 <= i < popsize -> two_opt n dist fadd fsub eps fuel (shuffle i) = Ret (c, p) -> best < c)).
Proof.
  intros n dist fadd fsub eps inf fuel shuffle draw popsize cmax N Ps Fin Sh Dr.
  destruct (solve_ok n dist fadd fsub eps inf ltac:(lia) Fin fuel shuffle draw popsize cmax N Sh Dr Ps) as [H|(best & best0 & X & E & (i & p & Hi & T) & M & (q & G & G') & L & HX)]; [left; exact H|right].
  exists best, X. split; [exact E|]. split; [exists q; split; [exact G|exact G']|]. split; [intros i' c p' Hi' T'; pose proof (M i' c p' Hi' T'); lia|]. destruct HX as [(p' & EX & (G1 & G2) & Eb)|(c' & p' & EX & (G1 & G2) & B & Lt)].
  - left. exists p'. split; [exact EX|]. split; [exact G1|]. split; [exact G2|]. exists i, p. subst best0. auto.
  - right. exists c', p'. split; [exact EX|]. split; [exact G1|]. split; [exact G2|]. split; [exact B|]. intros i' c p2 Hi' T'. pose proof (M i' c p2 Hi' T'). lia.
Qed.

(** In exact arithmetic it ends, and the cost it reports is the length of a tour that is not longer than any of the
    shuffled ones. *)
Theorem C93_solve_ends : forall n dist D eps inf fuel shuffle draw popsize cmax, 20 <= n -> 1 <= popsize ->
  (forall x y, dist x y = dist y x) -> (forall x y, 0 <= dist x y <= D) -> 0 <= eps -> n * D < inf -> (n + 1) * (n * D) + n < 2 ^ Z.of_nat fuel ->
  (forall i, tour n (shuffle i)) -> (forall c i, 10 <= fst (fst (draw c i)) <= n / 2) ->
  exists best X, solve n dist Z.add Z.sub eps inf fuel shuffle draw popsize cmax = Ret (best, X) /\
    (exists q, tour n q /\ tour_length n dist q = best) /\ forall i, 0 <= i < popsize -> best <= tour_length n dist (shuffle i).
Proof.
  intros n dist D eps inf fuel shuffle draw popsize cmax N Ps Sy Bd E Fi Fu Sh Dr.
  assert (LB : forall p, tour_length n dist p <= n * D) by (intros p; apply tour_length_bound; [lia|intros x y; apply Bd]).
  assert (Te : forall p, tour n p -> exists q, two_opt n dist Z.add Z.sub eps fuel p = Ret (tour_length n dist q, q) /\ tour n q /\ tour_length n dist q <= tour_length n dist p).
  { intros p T. apply C93_two_opt_ends; try assumption; [lia|intros; apply Bd|]. pose proof (LB p). nia. }
  destruct (C93_solve n dist Z.add Z.sub eps inf fuel shuffle draw popsize cmax N Ps) as [(_ & p & T & Dv)|(best & X & Es & (q & Tq & Cq) & M & _)].
  - intros p c T C. rewrite C93_cost in C by (assumption || lia). injection C as <-. pose proof (LB p). lia.
  - exact Sh.
  - exact Dr.
  - destruct (Te p T) as (q & R & _). congruence.
  - exists best, X. split; [exact Es|]. split; [exists q; split; [exact Tq|]; rewrite C93_cost in Cq by (assumption || lia); congruence|]. intros i Hi. destruct (Te (shuffle i) (Sh i)) as (q' & R & _ & L). pose proof (M i _ _ Hi R). lia.
Qed.

(** With fewer than 20 points, random.randint(10, n//2) has nothing to choose from; an empty population has no best. *)
Theorem C93_errors : forall n dist fadd fsub eps inf fuel shuffle draw popsize cmax,
  (0 < n < 20 -> 2 <= popsize -> 1 <= cmax -> (forall i, tour n (shuffle i)) ->
     solve n dist fadd fsub eps inf fuel shuffle draw popsize cmax = Diverge \/ solve n dist fadd fsub eps inf fuel shuffle draw popsize cmax = Raise ValueError) /\
  (popsize <= 0 -> solve n dist fadd fsub eps inf fuel shuffle draw popsize cmax = Raise IndexError).
Proof.
  intros n dist fadd fsub eps inf fuel shuffle draw popsize cmax. split.
  - intros N Ps Cm Sh. unfold solve. destruct (select_ok n dist fadd fsub eps ltac:(lia) fuel shuffle popsize Sh) as [(E & _)|(pop & E & F)]; rewrite E; cbn [bind]; [left; reflexivity|right].
    assert (Lp : length pop = Z.to_nat popsize) by (pose proof (zrange_length 0 popsize) as Lz; assert (length (zrange 0 popsize) = length pop) by (clear - F; induction F; cbn [length]; congruence); lia).
    set (all := pop ++ repeat (inf, []) (Z.to_nat popsize)). set (srt := sorted_list ind_less all). pose proof (sorted_perm ind_less all) as P. fold srt in P. pose proof (Permutation_length P) as L. unfold all in L at 1. rewrite app_length, repeat_length, Lp in L.
    destruct (nth_error srt 0) as [(b0 & p0)|] eqn:X0; [|apply nth_error_None in X0; lia]. destruct (nth_error srt 1) as [(b1 & p1)|] eqn:X1; [|apply nth_error_None in X1; lia].
    rewrite (nth_pyget srt 0 (b0, p0)) by (lia || exact X0). cbn [bind]. rewrite (zrange_cons 0 cmax) by lia. cbn [foldM]. unfold generation at 1. unfold offspring at 1. assert (1 <= popsize / 2) by (apply Z.div_le_lower_bound; lia). rewrite (zrange_cons 0 (popsize / 2)) by lia. cbn [foldM].
    rewrite (nth_pyget srt (2 * 0) (b0, p0)) by (lia || exact X0). cbn [bind]. rewrite (nth_pyget srt (2 * 0 + 1) (b1, p1)) by (lia || exact X1). cbn [bind]. destruct (draw 0 0) as ((h & j1) & j2). unfold mgkrec. assert (n / 2 < 10) by (apply Z.div_lt_upper_bound; lia). destruct (Z.ltb_spec (n / 2) 10); [|lia]. reflexivity.
  - intros Ps. unfold solve, select. rewrite zrange_nil by lia. cbn [mapM bind]. replace (Z.to_nat popsize) with 0%nat by lia. reflexivity.
Qed.

(** The result is not always a cost and a tour of that cost: 20 points at the two ends of a very short segment (twice 10^-7 of the unit,
    say, so that two_opt never finds a gain above its threshold). The second component of the result is not a tour but a
    list of a number and a tour, and this tour is the second best: it has the cost 12, although the cost reported is 4. *)
Definition demo_dist (x y : Z) : Z := Z.abs (x mod 2 - y mod 2).
Definition demo_shuffle (i : Z) : list Z :=
  if i =? 0 then [0;1;2;3;4;5;6;7;8;9;10;12;14;16;18;11;13;15;17;19] else [0;2;4;6;8;1;3;5;7;9;10;11;12;13;14;15;16;17;18;19].
Theorem C93_solve_refuted :
  (forall x y, demo_dist x y = demo_dist y x) /\ (forall x y, 0 <= demo_dist x y <= 1) /\ (forall i, tour 20 (demo_shuffle i)) /\
  solve 20 demo_dist Z.add Z.sub 10 1000 10 demo_shuffle (fun _ _ => (10, 0, 0)) 2 1 =
    Ret (4, Cost_and_path 12 (demo_shuffle 0)) /\ tour_length 20 demo_dist (demo_shuffle 0) = 12.
Proof.
  split; [|split; [|split; [|split]]].
  - intros x y. unfold demo_dist. rewrite <- Z.abs_opp. f_equal. ring.
  - intros x y. unfold demo_dist. pose proof (Z.mod_pos_bound x 2 ltac:(lia)). pose proof (Z.mod_pos_bound y 2 ltac:(lia)). lia.
  - intros i. assert (G : forall l, (forallb (fun x => (0 <=? x) && (x <? 20)) l && (length l =? 20)%nat && forallb (fun x => existsb (Z.eqb x) l) (zrange 0 20) = true) -> tour 20 l).
    { intros l H. apply andb_true_iff in H as (H & C). apply andb_true_iff in H as (_ & L). apply Nat.eqb_eq in L. unfold tour. symmetry. apply NoDup_Permutation_bis; [apply zrange_NoDup|rewrite zrange_length; cbn; lia|].
      intros x Hx. rewrite forallb_forall in C. specialize (C x Hx). apply existsb_exists in C as (y & Hy & E). apply Z.eqb_eq in E. subst. exact Hy. }
    unfold demo_shuffle. destruct (i =? 0); apply G; vm_compute; reflexivity.
  - vm_compute. reflexivity.
  - vm_compute. reflexivity.
Qed.

(** Non-vacuity: five points on a line; two_opt shortens the tour 0, 2, 4, 1, 3. *)
Example C93_example_two_opt : two_opt 5 (fun x y => Z.abs (x - y)) Z.add Z.sub 0 6 [0;2;4;1;3] = Ret (8, [2;3;4;1;0]) /\
  tour_length 5 (fun x y => Z.abs (x - y)) [0;2;4;1;3] = 12.
Proof. split; vm_compute; reflexivity. Qed.
Example C93_example_child : child 5 2 3 [0;1;2;3;4] [4;2;0;1;3] = Ret [3;4;2;0;1].
Proof. reflexivity. Qed.
Example C93_example_solve : exists best X, solve 20 demo_dist Z.add Z.sub 10 1000 10 demo_shuffle (fun _ _ => (10, 0, 0)) 2 1 = Ret (best, X) /\
  (exists q, tour 20 q /\ tour_length 20 demo_dist q = best) /\ forall i, 0 <= i < 2 -> best <= tour_length 20 demo_dist (demo_shuffle i).
Proof.
  destruct C93_solve_refuted as (S1 & S2 & S3 & _).
  apply (C93_solve_ends 20 demo_dist 1 10 1000 10 demo_shuffle (fun _ _ => (10, 0, 0)) 2 1); try lia; try assumption.
  intros c i. cbn. lia.
Qed.
Example C93_example_errors : solve 5 (fun x y => Z.abs (x - y)) Z.add Z.sub 0 1000 6 (fun _ => [0;2;4;1;3]) (fun _ _ => (0, 0, 0)) 2 1 = Raise ValueError.
Proof. vm_compute. reflexivity. Qed.

Print Assumptions C93_cost.
Print Assumptions C93_two_opt.
Print Assumptions C93_two_opt_ends.
Print Assumptions C93_child.
Print Assumptions C93_mgkrec.
Print Assumptions C93_select.
Print Assumptions C93_solve.
Print Assumptions C93_solve_ends.
Print Assumptions C93_errors.
Print Assumptions C93_solve_refuted.
