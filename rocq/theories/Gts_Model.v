(** * Model of rosemary/combinatorics/optimization/genetic_tsp.py *)
From Coq Require Import ZArith List Bool.
From Verif Require Import Base Py.
Import ListNotations.
Open Scope Z_scope.

(** list.sort with the comparison [ltb] (objects that compare equal are equal here). *)
Section Sort.
  Context {A : Type} (ltb : A -> A -> bool).
  Fixpoint ins (x : A) (l : list A) : list A :=
    match l with [] => [x] | y :: l' => if ltb x y then x :: l else y :: ins x l' end.
  Definition sorted_list (l : list A) : list A := fold_right ins [] l.
End Sort.

(** Python's order of the pairs (number, number), of lists of numbers, and of the pairs (number, list). *)
Definition pair_less (a b : Z * Z) : bool := (fst a <? fst b) || (fst a =? fst b) && (snd a <? snd b).
Fixpoint list_less (a b : list Z) : bool :=
  match a, b with
  | _, [] => false
  | [], _ => true
  | x :: a', y :: b' => (x <? y) || (x =? y) && list_less a' b'
  end.
Definition ind_less (a b : Z * list Z) : bool := (fst a <? fst b) || (fst a =? fst b) && list_less (snd a) (snd b).

(** path.index(x) *)
Fixpoint index_of (x : Z) (l : list Z) : outcome Z :=
  match l with
  | [] => Raise ValueError
  | y :: l' => if x =? y then Ret 0 else do i <- index_of x l'; Ret (1 + i)
  end.

(** genetic_tsp.py:46-53: the indices k, k+1, ..., j, cyclically. *)
Fixpoint idxs_loop (fuel : nat) (n k j : Z) : outcome (list Z) :=
  match fuel with
  | O => Diverge
  | S f => let k' := (k + 1) mod n in
           if k' =? j then Ret [k; k'] else do r <- idxs_loop f n k' j; Ret (k :: r)
  end.

(** genetic_tsp.py:40-61, [rev]. *)
Definition rev_path (path : list Z) (i j : Z) : outcome (list Z) :=
  if i <? j then
    Ret (firstn (Z.to_nat i) path ++ rev (firstn (Z.to_nat (j + 1 - i)) (skipn (Z.to_nat i) path)) ++ skipn (Z.to_nat (j + 1)) path)
  else if j <? i then
    do idxs <- idxs_loop (length path) (Z.of_nat (length path)) i j;
    do vals <- mapM (pyget path) idxs;
    foldM (fun r '(x, t) => pyset r t x) (combine (rev vals) idxs) path
  else Ret path.

Section TSP.
  (** The number of points; the floating point numbers, represented by integers in the same order, so that comparisons
      are those of integers; the distance of two points, addition, subtraction, the constant 0.000001 and infinity. *)
  Context (n : Z) (dist : Z -> Z -> Z) (fadd fsub : Z -> Z -> Z) (eps inf : Z).

  (** genetic_tsp.py:6-26, [__init__]. *)
  Definition neighbors (i : Z) : list (Z * Z) :=
    firstn (Z.to_nat (Z.min n 20))
      (sorted_list pair_less (map (fun j => (dist i j, j)) (filter (fun j => negb (i =? j)) (zrange 0 n)))).
  Definition nearest_neighbors : list (list (Z * Z)) := map neighbors (zrange 0 n).

  (** genetic_tsp.py:28-37, [cost]. *)
  Definition cost (path : list Z) : outcome Z :=
    do a <- pyget path 0;
    do b <- pyget path (-1);
    foldM (fun total i => do a <- pyget path i; do b <- pyget path (i + 1); Ret (fadd total (dist a b)))
          (zrange 0 (n - 1)) (dist a b).

  (** genetic_tsp.py:75-100: the loop over the neighbours of xj; the new path, if there is one. *)
  Fixpoint scan (path : list Z) (i xi dij : Z) (row : list (Z * Z)) : outcome (option (list Z)) :=
    match row with
    | [] => Ret None
    | (djk, xk) :: row' =>
        if dij <=? djk then Ret None
        else
          do k <- index_of xk path;
          let l := (k - 1) mod n in
          do xl <- pyget path l;
          let gain := dij in
          let gain := fadd gain (dist xl xk) in
          let gain := fsub gain djk in
          let gain := fsub gain (dist xi xl) in
          if eps <? gain then do path' <- rev_path path k i; Ret (Some path')
          else scan path i xi dij row'
    end.

  (** genetic_tsp.py:66-102: one round of the while loop. *)
  Definition opt_round (path : list Z) (i : Z) : outcome (list Z * Z) :=
    let j := (i + 1) mod n in
    do xi <- pyget path i;
    do xj <- pyget path j;
    do row <- pyget nearest_neighbors xj;
    do found <- scan path i xi (dist xi xj) row;
    match found with Some path' => Ret (path', 0) | None => Ret (path, i + 1) end.
  Definition opt_step (s : list Z * Z) : (list Z * Z) + outcome (list Z) :=
    let '(path, i) := s in
    if i <? n then match opt_round path i with Ret s' => inl s' | Raise e => inr (Raise e) | Diverge => inr Diverge end
    else inr (Ret path).

  (** genetic_tsp.py:39-104, [two_opt]; at most 2^fuel rounds. *)
  Definition two_opt (fuel : nat) (path : list Z) : outcome (Z * list Z) :=
    do path <- run opt_step fuel (path, 0);
    do c <- cost path;
    Ret (c, path).

  (** genetic_tsp.py:106-117, [select]; [shuffle i] is the i-th shuffled path. *)
  Definition select (fuel : nat) (shuffle : Z -> list Z) (popsize : Z) : outcome (list (Z * list Z)) :=
    mapM (fun i => two_opt fuel (shuffle i)) (zrange 0 popsize).

  (** genetic_tsp.py:134-140: one point of P2; [done] after the break. *)
  Definition fill_step (T : list Z) (s : list Z * Z * bool) (p : Z) : outcome (list Z * Z * bool) :=
    let '(C, i, done) := s in
    if done : bool then Ret s
    else if existsb (Z.eqb p) T then Ret s
    else do C <- pyset C i p; Ret (C, i + 1, n <=? i + 1).

  (** genetic_tsp.py:125-140: the child of two parents; [h] and [j] are random numbers. *)
  Definition child (h j : Z) (P1 P2 : list Z) : outcome (list Z) :=
    let C := repeat 0 (Z.to_nat n) in
    do '(C, T) <- foldM (fun '(C, T) i => do x <- pyget P1 ((i + j) mod n); do C <- pyset C i x; Ret (C, x :: T)) (zrange 0 h) (C, []);
    do '(C, _, _) <- foldM (fill_step T) P2 (C, h, false);
    Ret C.

  (** genetic_tsp.py:119-144, [mgkrec]; [h], [j1], [j2] are the random numbers. *)
  Definition mgkrec (fuel : nat) (h j1 j2 : Z) (A B : list Z) : outcome ((Z * list Z) * (Z * list Z)) :=
    if n / 2 <? 10 then Raise ValueError
    else
      do c1 <- child h j1 B A;
      do r1 <- two_opt fuel c1;
      do c2 <- child h j2 A B;
      do r2 <- two_opt fuel c2;
      Ret (r1, r2).

  (** The second component of the result: a path, or list(population[1]), i.e. [cost, path]. *)
  Inductive xbest := Path (p : list Z) | Cost_and_path (c : Z) (p : list Z).

  (** genetic_tsp.py:157-163: the children of one generation; [draw i] are the random numbers of mgkrec. *)
  Definition offspring (fuel : nat) (draw : Z -> Z * Z * Z) (popsize : Z) (population : list (Z * list Z)) : outcome (list (Z * list Z)) :=
    foldM (fun population i =>
             do '(_, p2i) <- pyget population (2 * i);
             do '(_, p2i1) <- pyget population (2 * i + 1);
             let '(h, j1, j2) := draw i in
             do '(a, b) <- mgkrec fuel h j1 j2 p2i p2i1;
             do population <- pyset population (popsize + 2 * i) a;
             pyset population (popsize + 2 * i + 1) b)
          (zrange 0 (popsize / 2)) population.

  (** genetic_tsp.py:156-171: one generation. *)
  Definition generation (fuel : nat) (draw : Z -> Z -> Z * Z * Z) (popsize : Z) (s : list (Z * list Z) * Z * xbest) (c : Z) :
    outcome (list (Z * list Z) * Z * xbest) :=
    let '(population, best_cost, X) := s in
    do population <- offspring fuel (draw c) popsize population;
    let population := sorted_list ind_less population in
    do '(current_cost, _) <- pyget population 0;
    if current_cost <? best_cost then
      do '(c1, p1) <- pyget population 1;
      Ret (population, current_cost, Cost_and_path c1 p1)
    else Ret (population, best_cost, X).

  (** genetic_tsp.py:146-173, [solve]. *)
  Definition solve (fuel : nat) (shuffle : Z -> list Z) (draw : Z -> Z -> Z * Z * Z) (popsize cmax : Z) : outcome (Z * xbest) :=
    do population <- select fuel shuffle popsize;
    let population := population ++ repeat (inf, []) (Z.to_nat popsize) in
    let population := sorted_list ind_less population in
    do '(best_cost, p) <- pyget population 0;
    do '(_, best_cost, X) <- foldM (generation fuel draw popsize) (zrange 0 cmax) (population, best_cost, Path p);
    Ret (best_cost, X).
End TSP.
