(** * Model of rosemary/combinatorics/optimization/tsp.py for matrices of integers *)
From Coq Require Import ZArith List Bool QArith.
From Verif Require Import Base Py Dict.
Import ListNotations.
Open Scope Z_scope.

(** Weights: integers and [float('inf')] (None).  The float distances of euclidean_distance_matrix (5-19) are
    in Euc_Model: here [distance_matrix] is always given. *)
Notation weight := (option Z).
Definition wadd (a b : weight) : weight := match a, b with Some x, Some y => Some (x + y) | _, _ => None end.
(** [a - b]; only used where [b] is finite ([inf - inf] is not modelled). *)
Definition wsub (a b : weight) : weight := match a, b with Some x, Some y => Some (x - y) | _, _ => None end.
(** [a < b]. *)
Definition wltb (a b : weight) : bool := match a, b with Some x, Some y => x <? y | Some _, None => true | None, _ => false end.

Section TSP.
  Context (D : list (list weight)).

  (** [distance_matrix[i][j]]. *)
  Definition entry (i j : Z) : outcome weight := do row <- pyget D i; pyget row j.

  (** tsp.py:22-26. *)
  Definition cost (path : list Z) (num_vertices : Z) : outcome weight :=
    do a <- pyget path (-1);
    do b <- pyget path 0;
    do total <- entry a b;
    foldM (fun total i =>
      do x <- pyget path i;
      do y <- pyget path (i + 1);
      do w <- entry x y;
      Ret (wadd total w)) (zrange 0 (num_vertices - 1)) total.

  (** tsp.py:43-48 (and 129-134). *)
  Definition choices_at (n : Z) (path : list Z) (l : Z) (last_choices : list Z) : outcome (list Z) :=
    if l =? 0 then Ret [0]
    else if l =? 1 then Ret (zrange 1 n)
    else filterM (fun e => do x <- pyget path (-1); Ret (negb (e =? x))) last_choices.

  Notation best_t := (weight * list Z)%type.

  (** tsp.py:36-51.  [fuel] is the depth that remains. *)
  Fixpoint backtrack (n : Z) (fuel : nat) (path : list Z) (l : Z) (last_choices : list Z) (best : best_t) : outcome best_t :=
    if l =? n then
      do total <- cost path n;
      Ret (if wltb total (fst best) then (total, path) else best)
    else
      match fuel with
      | O => Diverge
      | S fuel =>
          do choices <- choices_at n path l last_choices;
          foldM (fun best c => backtrack n fuel (path ++ [c]) (l + 1) choices best) choices best
      end.

  (** tsp.py:29-54; [n] is len(points). *)
  Definition depth_first (n : Z) : outcome best_t := backtrack n (Z.to_nat n) [] 0 [] (None, []).

  (** ** Branch and bound *)
  (** min of a nonempty row. *)
  Definition wmin_list (l : list weight) : outcome weight :=
    match l with [] => Raise ValueError | x :: l => Ret (fold_left (fun m y => if wltb y m then y else m) l x) end.

  (** tsp.py:70-74: subtract from each row its least entry; the sum of these. *)
  Definition reduce_rows (M : list (list weight)) : outcome (list (list weight) * weight) :=
    foldM (fun '(M, val) i =>
      do row <- pyget M i;
      do m <- wmin_list row;
      do M <- pyset M i (map (fun x => wsub x m) row);
      Ret (M, wadd val m)) (zrange 0 (Z.of_nat (length M))) (M, Some 0).

  (** tsp.py:76-83. *)
  Definition reduce_cols (M : list (list weight)) (val : weight) : outcome weight :=
    let num := Z.of_nat (length M) in
    do '(_, val) <- foldM (fun '(M, val) j =>
      do row0 <- pyget M 0;
      do m <- pyget row0 j;
      do m <- foldM (fun m i => do row <- pyget M i; do x <- pyget row j; Ret (if wltb x m then x else m)) (zrange 1 num) m;
      do M <- mapM (fun row => do x <- pyget row j; pyset row j (wsub x m)) M;
      Ret (M, wadd val m)) (zrange 0 num) (M, val);
    Ret val.

  (** tsp.py:66-85. *)
  Definition reduce_matrix (M : list (list weight)) : outcome weight :=
    do '(M, val) <- reduce_rows M;
    reduce_cols M val.

  (** tsp.py:87-120. *)
  Definition reduce_bound (n : Z) (X : list Z) : outcome weight :=
    let m := Z.of_nat (length X) in
    if m =? n then cost X n
    else
      let other := filter (fun e => negb (existsb (Z.eqb e) X)) (zrange 0 n) in
      do last <- pyget X (-1);
      do first <- pyget X 0;
      do row0 <- mapM (fun y => entry last y) other;
      do rows <- mapM (fun x => do a <- entry x first; do r <- mapM (fun y => entry x y) other; Ret (a :: r)) other;
      do ans <- reduce_matrix ((None :: row0) :: rows);
      foldM (fun ans i => do a <- pyget X (i - 1); do b <- pyget X i; do w <- entry a b; Ret (wadd ans w)) (zrange 1 m) ans.

  (** [L.sort()] on pairs, tsp.py:142. *)
  Definition bc_ltb (a b : weight * Z) : bool := wltb (fst a) (fst b) || (negb (wltb (fst b) (fst a)) && (snd a <? snd b)).
  Fixpoint bc_insert (x : weight * Z) (l : list (weight * Z)) : list (weight * Z) :=
    match l with [] => [x] | y :: l' => if bc_ltb y x then y :: bc_insert x l' else x :: l end.
  Fixpoint bc_sort (l : list (weight * Z)) : list (weight * Z) :=
    match l with [] => [] | x :: l' => bc_insert x (bc_sort l') end.

  (** tsp.py:143-146: the loop over the sorted choices, left as soon as a bound is not below the best cost. *)
  Fixpoint bound_loop (rec : Z -> best_t -> outcome best_t) (L : list (weight * Z)) (best : best_t) : outcome best_t :=
    match L with
    | [] => Ret best
    | (bound, c) :: L => if negb (wltb bound (fst best)) then Ret best else do best <- rec c best; bound_loop rec L best
    end.

  (** tsp.py:122-146. *)
  Fixpoint bb_backtrack (n : Z) (fuel : nat) (path : list Z) (l : Z) (last_choices : list Z) (best : best_t) : outcome best_t :=
    if l =? n then
      do total <- cost path n;
      Ret (if wltb total (fst best) then (total, path) else best)
    else
      match fuel with
      | O => Diverge
      | S fuel =>
          do choices <- choices_at n path l last_choices;
          do L <- mapM (fun x => do b <- reduce_bound n (path ++ [x]); Ret (b, x)) choices;
          bound_loop (fun c best => bb_backtrack n fuel (path ++ [c]) (l + 1) choices best) (bc_sort L) best
      end.

  (** tsp.py:57-149. *)
  Definition branch_and_bound (n : Z) : outcome best_t := bb_backtrack n (Z.to_nat n) [] 0 [] (None, []).

  (** ** Two-opt *)
  (** tsp.py:285-295: the gain of exchanging two edges. *)
  Definition gain (n : Z) (sol : list Z) (i j : Z) : outcome weight :=
    do xi <- pyget sol i;
    do xii <- pyget sol ((i + 1) mod n);
    do xj <- pyget sol j;
    do xjj <- pyget sol ((j + 1) mod n);
    do a <- entry xi xii;
    do b <- entry xj xjj;
    do c <- entry xii xjj;
    do e <- entry xi xj;
    Ret (wsub (wsub (wadd a b) c) e).

  (** tsp.py:283-300: the best exchange; state [(g0, i0, j0)]. *)
  Definition best_gain (n : Z) (sol : list Z) : outcome (weight * Z * Z) :=
    foldM (fun s i => foldM (fun '(g0, i0, j0) j =>
        do g <- gain n sol i j;
        Ret (if wltb g0 g then (g, i, j) else (g0, i0, j0))) (zrange (i + 2) n) s) (zrange 0 n) (Some 0, 0, 0).

  (** tsp.py:303: sol[i+1:j+1] = sol[i+1:j+1][::-1]. *)
  Definition reverse_slice (sol : list Z) (i j : Z) : list Z :=
    let a := Z.to_nat (i + 1) in
    let b := Z.to_nat (j + 1) in
    firstn a sol ++ rev (skipn a (firstn b sol)) ++ skipn b sol.

  (** tsp.py:281-305, one round; state [(best_cost, best_sol)].  [g0 > 0.0000001] is [g0 > 0] for integers. *)
  Definition two_opt_step (n : Z) (s : weight * list Z) : (weight * list Z) + outcome (weight * list Z) :=
    let '(best_cost, sol) := s in
    match best_gain n sol with
    | Ret (g0, i0, j0) => if wltb (Some 0) g0 then inl (wsub best_cost g0, reverse_slice sol i0 j0) else inr (Ret (best_cost, sol))
    | Raise e => inr (Raise e)
    | Diverge => inr Diverge
    end.

  (** tsp.py:271-307.  [fuel] bounds the number of rounds. *)
  Definition two_opt (fuel : nat) (n : Z) : outcome (weight * list Z) :=
    let sol := zrange 0 n in
    do c <- cost sol n;
    run (two_opt_step n) fuel (c, sol).
End TSP.

(** ** Farthest insertion *)
Section FI.
  Context (D : list (list weight)).

  (** Comparison of the tuples [(c, (u, v))]. *)
  Definition ec_ltb (a b : weight * (Z * Z)) : bool :=
    wltb (fst a) (fst b) ||
    (negb (wltb (fst b) (fst a)) &&
     ((fst (snd a) <? fst (snd b)) || ((fst (snd a) =? fst (snd b)) && (snd (snd a) <? snd (snd b))))).

  (** [max] and [min] of a nonempty generator: the first extreme element. *)
  Definition best_by {A} (better : A -> A -> bool) (l : list A) : outcome A :=
    match l with [] => Raise ValueError | x :: l => Ret (fold_left (fun m y => if better y m then y else m) l x) end.

  Definition pair_eqb (a b : Z * Z) : bool := (fst a =? fst b) && (snd a =? snd b).
  (** Adding to and discarding from the set of edges. *)
  Definition eadd (edges : list (Z * Z)) (e : Z * Z) : list (Z * Z) := if existsb (pair_eqb e) edges then edges else edges ++ [e].
  Definition ediscard (edges : list (Z * Z)) (e : Z * Z) : list (Z * Z) := filter (fun x => negb (pair_eqb e x)) edges.

  (** tsp.py:174-177: the cost of inserting [f] into the edge [(u, v)]. *)
  Definition insertion (f : Z) (e : Z * Z) : outcome weight :=
    let '(u, v) := e in
    do a <- entry D u f;
    do b <- entry D f v;
    if pair_eqb e (0, 0) then Ret (wadd a b)
    else do w <- entry D u v; Ret (wsub (wadd a b) w).

  (** tsp.py:171-188.  State: the set [left], the dictionary [dist], the set [edges] and [tweight].  The tuples compared
      in 172 and 179 are distinct and the dictionaries are only read by key, so the iteration order of the sets does
      not matter; they are lists here.  [fuel] bounds the number of rounds. *)
  Fixpoint insert_loop (fuel : nat) (left : list Z) (dist : list (Z * weight)) (edges : list (Z * Z)) (tweight : weight) : outcome (list (Z * Z) * weight) :=
    match left with
    | [] => Ret (edges, tweight)
    | _ =>
        match fuel with
        | O => Diverge
        | S fuel =>
            do cand <- mapM (fun v => do x <- dgetM dist v; Ret (x, v)) left;
            do '(_, f) <- best_by (fun a b => bc_ltb b a) cand;
            do cs <- mapM (fun e => do w <- insertion f e; Ret (w, e)) edges;
            do '(w, (t, h)) <- best_by ec_ltb cs;
            let edges := ediscard (eadd (eadd edges (t, f)) (f, h)) (t, h) in
            let left := filter (fun x => negb (x =? f)) left in
            do dist <- foldM (fun dist x =>
              do a <- dgetM dist x;
              do b <- entry D f x;
              Ret (dset dist x (if wltb b a then b else a))) left dist;
            insert_loop fuel left dist edges (wadd tweight w)
        end
    end.

  (** tsp.py:194-198. *)
  Fixpoint follow (fuel : nat) (next : list (Z * Z)) (path : list Z) (hop : Z) : outcome (list Z) :=
    if hop =? 0 then Ret path
    else match fuel with O => Diverge | S fuel => do hop' <- dgetM next hop; follow fuel next (path ++ [hop]) hop' end.

  (** tsp.py:161-188: with the keyword [edges] (190-191) the result is the set of edges. *)
  Definition insertion_edges (n : Z) : outcome (list (Z * Z) * weight) :=
    let left := zrange 1 n in
    do dist <- foldM (fun dist v => do w <- entry D 0 v; Ret (dset dist v w)) left [];
    insert_loop (Z.to_nat n) left dist [(0, 0)] (Some 0).

  (** tsp.py:152-200. *)
  Definition farthest_insertion (n : Z) : outcome (weight * list Z) :=
    do '(edges, tweight) <- insertion_edges n;
    let next := fold_left (fun d '(u, v) => dset d u v) edges [] in
    do hop <- dgetM next 0;
    do path <- follow (Z.to_nat n) next [0] hop;
    Ret (tweight, path).
End FI.

(** tsp.py:225-268.  [D0] is the euclidean distance matrix of the points: 230 calls farthest_insertion without the given
    matrix.  [G] (232-242) reads the same entries as the gain in two_opt, X[i + 1] if i + 1 < n else X[0] being
    X[(i + 1) % n], and the tour built in 256-262 is the slice reversal of two_opt. *)
Definition steepest_ascent_two_opt (D0 D : list (list weight)) (fuel : nat) (n : Z) : outcome (weight * list Z) :=
  do s <- farthest_insertion D0 n;
  run (two_opt_step D n) fuel s.

(** ** Simulated annealing *)
Section SA.
  Context (D : list (list weight)).

  (** tsp.py:345-346: [new_sol[j:k+1]] reversed. *)
  Definition reverse_range (sol : list Z) (j k : Z) : list Z := reverse_slice sol (j - 1) k.

  (** One draw of the inner loop: the values [k], [j] and the number [r] of random.random(), in [0, 1).  The cooling schedule
      (335-340, 362) only decides how many draws there are, so a run of the inner loop is any list of draws. *)
  Notation draw := (Z * Z * Q)%type.

  (** tsp.py:341-360.  State [(sol, best_value, best_sol)].  random.randint(2, n - 1) raises ValueError for n < 3, and so does
      math.log(0.0).  For 0 < r < 1 the logarithm is negative while cost_new - cost_old is not, so that the test in 359 holds,
      except that inf - inf is nan and all comparisons with nan fail. *)
  Definition anneal_step (n : Z) (s : list Z * weight * list Z) (x : draw) : outcome (list Z * weight * list Z) :=
    let '(sol, best_value, best_sol) := s in
    let '(k, j, r) := x in
    if n <? 3 then Raise ValueError else
    let new_sol := reverse_range sol j k in
    do cost_new <- cost D new_sol n;
    do cost_old <- cost D sol n;
    if wltb cost_new cost_old then
      if wltb cost_new best_value then Ret (new_sol, cost_new, new_sol) else Ret (new_sol, best_value, best_sol)
    else if Qeq_bool r 0 then Raise ValueError
    else Ret (match cost_old with None => s | Some _ => (new_sol, best_value, best_sol) end).

  (** tsp.py:325: [abs(best_value - old_value) < 0.000001], which is equality for integers; infinities give nan or inf. *)
  Definition unchanged (best_value old_value : weight) : bool :=
    match best_value, old_value with Some a, Some b => a =? b | _, _ => false end.

  (** tsp.py:324-362, one round of the outer loop; [rounds i] are the draws of round [i].
      State [(i, best_value, best_sol, old_value, count)]. *)
  Definition anneal_round (n : Z) (rounds : Z -> list draw) (s : Z * weight * list Z * weight * Z) :
      (Z * weight * list Z * weight * Z) + outcome (weight * list Z) :=
    let '(i, best_value, best_sol, old_value, count) := s in
    let same := unchanged best_value old_value in
    if same && (count + 1 =? 1000) then inr (Ret (best_value, best_sol))
    else
      let '(old_value, count) := if same then (old_value, count + 1) else (best_value, 0) in
      match foldM (anneal_step n) (rounds i) (best_sol, best_value, best_sol) with
      | Ret (_, best_value, best_sol) => inl (i + 1, best_value, best_sol, old_value, count)
      | Raise e => inr (Raise e)
      | Diverge => inr Diverge
      end.

  (** tsp.py:310-364.  [shuffled] is the result of random.shuffle (320); [fuel] bounds the number of rounds; the printed
      values (330) are left out. *)
  Definition annealing (fuel : nat) (n : Z) (shuffled : list Z) (rounds : Z -> list draw) : outcome (weight * list Z) :=
    do best_value <- cost D shuffled n;
    run (anneal_round n rounds) fuel (0, best_value, shuffled, None, 0).
End SA.

(** tsp.py:217-222: the exchange made by random_two_opt for the values [a] and [b] drawn in 206-215. *)
Definition random_exchange (path : list Z) (a b : Z) : list Z :=
  let '(a, b) := if b <? a then (b, a) else (a, b) in
  reverse_slice path (a - 1) b.

(** tsp.py:208-215: the values of [b] the loop accepts. *)
Definition accepts (n a b : Z) : bool :=
  negb (existsb (Z.eqb (a - b)) [-1; 0; 1]) && negb (pair_eqb (a, b) (0, n - 1) || pair_eqb (a, b) (n - 1, 0)).
