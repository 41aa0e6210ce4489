(** * Model of rosemary/combinatorics/optimization/knapsack.py *)
From Coq Require Import ZArith List Bool.
From Verif Require Import Base.
Import ListNotations.
Open Scope Z_scope.

Notation item := (Z * Z)%type. (* (value, weight) *)

(** knapsack.py:50-59, [backtrack] of [depth_first]; [best] is the mutable pair and
    [rest] is items[idx:]. *)
Fixpoint knap_backtrack (capacity : Z) (rest : list item) (current_value current_weight : Z) (used : list item)
  (best : Z * list item) : Z * list item :=
  if current_weight <=? capacity then
    match rest with
    | [] => if current_value >? fst best then (current_value, used) else best
    | (v, w) :: rest' =>
        let best := knap_backtrack capacity rest' (current_value + v) (current_weight + w) (used ++ [(v, w)]) best in
        knap_backtrack capacity rest' current_value current_weight used best
    end
  else best.

(** knapsack.py:15-63, [depth_first]. *)
Definition knap_depth_first (items : list item) (capacity : Z) : Z * list item :=
  knap_backtrack capacity items 0 0 [] (0, []).

(** knapsack.py:73-81: the inner loop on k for item i = (v, w).  The table M is kept
    by columns: [col] is column i (M[0][i], ..., M[capacity][i]); the result is column
    i + 1 with the keys (k, i + 1) added to [keep]. *)
Definition dp_column (capacity v w : Z) (i : Z) (col : list Z) (keep : list (Z * Z)) : outcome (list Z * list (Z * Z)) :=
  foldM (fun '(new, keep) k =>
    do m <- pyget col k;
    if k <? w then Ret (new ++ [m], keep)
    else
      do m' <- pyget col (k - w);
      if m >? v + m' then Ret (new ++ [m], keep)
      else Ret (new ++ [v + m'], (k, i + 1) :: keep)) (zrange 0 (capacity + 1)) ([], keep).

(** knapsack.py:71-81. *)
Fixpoint dp_columns (capacity : Z) (i : Z) (items : list item) (col : list Z) (keep : list (Z * Z))
  : outcome (list Z * list (Z * Z)) :=
  match items with
  | [] => Ret (col, keep)
  | (v, w) :: items' =>
      do '(col, keep) <- dp_column capacity v w i col keep;
      dp_columns capacity (i + 1) items' col keep
  end.

Definition pair_mem (p : Z * Z) (l : list (Z * Z)) : bool := existsb (fun q => (fst p =? fst q) && (snd p =? snd q)) l.

(** knapsack.py:83-88: [rev_items] lists items[i-1] for i = n, ..., 1. *)
Fixpoint dp_used (keep : list (Z * Z)) (rev_items : list item) (w i : Z) : list item :=
  match rev_items with
  | [] => []
  | it :: rest =>
      if pair_mem (w, i) keep then it :: dp_used keep rest (w - snd it) (i - 1)
      else dp_used keep rest w (i - 1)
  end.

(** Python's sorted() on pairs. *)
Definition item_leb (a b : item) : bool := (fst a <? fst b) || ((fst a =? fst b) && (snd a <=? snd b)).
Fixpoint insert_item (x : item) (l : list item) : list item :=
  match l with [] => [x] | y :: l' => if item_leb x y then x :: l else y :: insert_item x l' end.
Definition sorted_items (l : list item) : list item := fold_right insert_item [] l.

(** knapsack.py:66-92, [dynamic_programming]. *)
Definition knap_dynamic (items : list item) (capacity : Z) : outcome (Z * list item) :=
  let n := Z.of_nat (length items) in
  do '(col, keep) <- dp_columns capacity 0 items (map (fun _ => 0) (zrange 0 (capacity + 1))) [];
  let used := dp_used keep (rev items) capacity n in
  do v <- pyget col capacity;
  Ret (v, sorted_items used).

(** knapsack.py:188-193, [P]. *)
Definition knap_P (items : list item) (X : list Z) : outcome Z :=
  foldM (fun total i =>
    do x <- pyget X i;
    if x =? 0 then Ret total else do it <- pyget items i; Ret (total + fst it))
    (zrange 0 (Z.of_nat (length items))) 0.

Record anneal := { a_items : list Z; a_weight : Z; a_best_items : list Z; a_best_value : Z }.

(** knapsack.py:196-219, one iteration.  The draws are [j] and the comparison r < math.exp(diff/temp), a function of
    diff: both the random r and the temperature are left open, and math.exp raises OverflowError for large arguments (None). *)
Notation exp_test := (Z -> option bool).
Definition anneal_step (items : list item) (capacity : Z) (s : anneal) (draw : Z * exp_test) : outcome anneal :=
  let '(j, test) := draw in
  do x <- pyget (a_items s) j;
  do neighbor <- pyset (a_items s) j (1 - x);
  do it <- pyget items j;
  if negb (1 - x =? 0) && (a_weight s + snd it >? capacity) then Ret s
  else if negb (1 - x =? 0) then
    do v <- knap_P items neighbor;
    if v >? a_best_value s then
      Ret {| a_items := neighbor; a_weight := a_weight s + snd it; a_best_items := neighbor; a_best_value := v |}
    else
      Ret {| a_items := neighbor; a_weight := a_weight s + snd it; a_best_items := a_best_items s; a_best_value := a_best_value s |}
  else
    do pn <- knap_P items neighbor;
    do pc <- knap_P items (a_items s);
    match test (pn - pc) with
    | None => Raise OverflowError
    | Some true =>
        Ret {| a_items := neighbor; a_weight := a_weight s - snd it; a_best_items := a_best_items s; a_best_value := a_best_value s |}
    | Some false => Ret s
    end.

(** knapsack.py:144-223, [simulated_annealing], for the given draws (the code makes
    100000 of them; random.randint(0, -1) raises ValueError when there are no items). *)
Definition knap_annealing (items : list item) (capacity : Z) (draws : list (Z * exp_test)) : outcome (Z * list Z) :=
  let n := Z.of_nat (length items) in
  let zero := map (fun _ => 0) items in
  do s <- foldM (fun s d => if n =? 0 then Raise ValueError else anneal_step items capacity s d) draws
           {| a_items := zero; a_weight := 0; a_best_items := zero; a_best_value := 0 |};
  Ret (a_best_value s, a_best_items s).

(** ** branch_and_bound_depth_first

    knapsack.py:95-141; the floating point operations are those of Double_Model.v. *)
From Coq Require Import QArith.
From Verif Require Import Double_Model.
Open Scope Z_scope.

Notation uitem := (Z * Z * Z)%type. (* (v, w, i); the ratio is recomputed from it *)
Definition uc_v (t : uitem) : Z := fst (fst t).
Definition uc_w (t : uitem) : Z := snd (fst t).
Definition uc_i (t : uitem) : Z := snd t.
(** float(v)/float(w), knapsack.py:96. *)
Definition ratio (t : uitem) : Q := fl (fl (inject_Z (uc_v t)) / fl (inject_Z (uc_w t)))%Q.

(** The order of the tuples (u, v, w, i); knapsack.py:97 sorts them in decreasing order. *)
Definition uc_geb (a b : uitem) : bool :=
  if Qeq_bool (ratio a) (ratio b) then
    if uc_v a =? uc_v b then
      if uc_w a =? uc_w b then uc_i b <=? uc_i a else uc_w b <=? uc_w a
    else uc_v b <=? uc_v a
  else Qle_bool (ratio b) (ratio a).

Fixpoint uc_insert (x : uitem) (l : list uitem) : list uitem :=
  match l with [] => [x] | y :: l' => if uc_geb x y then x :: l else y :: uc_insert x l' end.
Definition uc_sort (l : list uitem) : list uitem := fold_right uc_insert [] l.

Fixpoint uc_enum (i : Z) (items : list item) : list uitem :=
  match items with [] => [] | (v, w) :: items' => (v, w, i) :: uc_enum (i + 1) items' end.

(** knapsack.py:96: the exceptions raised while computing the ratios. *)
Definition uc_check (items : list item) : outcome unit :=
  foldM (fun _ it => do _ <- flt (fst it); do w <- flt (snd it);
    if Qeq_bool w 0 then Raise ZeroDivisionError else Ret tt) items tt.

(** knapsack.py:104-111: the loop of [optimistic_bound]: (value, weight, u) when it ends; [u] is
    the variable left by the previous iteration. *)
Fixpoint bound_loop (rest : list uitem) (target value weight : Z) (u : Q) : Z * Z * Q :=
  match rest with
  | [] => (value, weight, u)
  | t :: rest' =>
      let u := ratio t in
      if weight + uc_w t >? target then (value, weight, u)
      else bound_loop rest' target (value + uc_v t) (weight + uc_w t) u
  end.

(** knapsack.py:101-112, when idx < num_items: value + u*(target - weight). *)
Definition optimistic_bound (rest : list uitem) (target : Z) : outcome Q :=
  let '(value, weight, u) := bound_loop rest target 0 0 0%Q in
  do d <- flt (target - weight);
  do v <- flt value;
  Ret (fl (v + fl (u * d)))%Q.

(** knapsack.py:127. *)
Definition bb_bound (rest : list uitem) (current_value target : Z) : outcome Q :=
  do b <- optimistic_bound rest target;
  do c <- flt current_value;
  Ret (fl (c + b))%Q.

(** knapsack.py:114-137; [rest] is unit_cost[idx:].  When it is empty the bound is an integer
    and is not used. *)
Fixpoint bb_backtrack (capacity : Z) (rest : list uitem) (current_value current_weight : Z) (used : list uitem)
  (best : Z * list uitem) : outcome (Z * list uitem) :=
  if current_weight <=? capacity then
    let best := if current_value >? fst best then (current_value, used) else best in
    match rest with
    | [] => Ret best
    | t :: rest' =>
        do bound <- bb_bound rest current_value (capacity - current_weight);
        let skip best :=
          if Qle_bool bound (inject_Z (fst best)) then Ret best
          else bb_backtrack capacity rest' current_value current_weight used best in
        if current_weight + uc_w t <=? capacity then
          if Qle_bool bound (inject_Z (fst best)) then Ret best
          else
            do best <- bb_backtrack capacity rest' (current_value + uc_v t) (current_weight + uc_w t) (used ++ [t]) best;
            skip best
        else skip best
    end
  else Ret best.

(** knapsack.py:95-141, [branch_and_bound_depth_first]. *)
Definition knap_branch_and_bound (items : list item) (capacity : Z) : outcome (Z * list uitem) :=
  do _ <- uc_check items;
  bb_backtrack capacity (uc_sort (uc_enum 0 items)) 0 0 [] (0, []).
