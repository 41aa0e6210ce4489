(** * Model of rosemary/combinatorics/generation/partitions.py *)
From Coq Require Import ZArith List Bool.
From Verif Require Import Base Lists Gen.
Import ListNotations.
Open Scope Z_scope.

(** partitions.py:101-106: fill with copies of [r]; returns the array, the index
    of the last entry written and the remainder written there. *)
Fixpoint p_fill (fuel : nat) (r : Z) (a : list Z) (last n : Z) : outcome (list Z * Z * Z) :=
  if n >? r then
    match fuel with
    | O => Diverge
    | S f => do a <- pyset a last r; p_fill f r a (last + 1) (n - r)
    end
  else do a <- pyset a last n; Ret (a, last, n).

(** partitions.py:89-106, one resumption of [algorithm_p]; the state is
    (partition, last_replaced, idx). *)
Definition p_next (st : list Z * Z * Z) : outcome (option (list Z * Z * Z)) :=
  let '(a, last, idx) := st in
  if idx <? 0 then Ret None
  else
    do v <- pyget a idx;
    if v =? 2 then
      do a <- pyset a idx 1;
      do a <- pyset a (last + 1) 1;
      Ret (Some (a, last + 1, idx - 1))
    else
      let r := v - 1 in
      do a <- pyset a idx r;
      let n := last - idx + 1 in
      do '(a, last, n) <- p_fill (Z.to_nat n) r a (idx + 1) n;
      Ret (Some (a, last, last - (if n =? 1 then 1 else 0))).

Definition p_visit (st : list Z * Z * Z) : list Z := let '(a, last, _) := st in firstn (Z.to_nat (last + 1)) a.

(** partitions.py:77-106, [algorithm_p]. *)
Definition algorithm_p (n : Z) (fuel : nat) : list (list Z) * gstatus :=
  match pyset (repeat 0 (Z.to_nat n)) 0 n with
  | Ret a => gen p_visit p_next fuel (a, 0, 0 - (if n =? 1 then 1 else 0))
  | Raise e => ([], GRaised e)
  | Diverge => ([], GStuck)
  end.

(** partitions.py:124-126: [while j < m and partition[j] >= partition[0] - 1]. *)
Fixpoint h_scan (fuel : nat) (m : Z) (a : list Z) (j s : Z) : outcome (Z * Z) :=
  if j <? m then
    do x <- pyget a j; do a0 <- pyget a 0;
    if x >=? a0 - 1 then match fuel with O => Diverge | S f => h_scan f m a (j + 1) (s + x) end
    else Ret (j, s)
  else Ret (j, s).

(** partitions.py:132-135: [while j > 0]. *)
Fixpoint h_fill (fuel : nat) (r : Z) (a : list Z) (j s : Z) : outcome (list Z * Z) :=
  if j >? 0 then
    match fuel with
    | O => Diverge
    | S f => do a <- pyset a j r; h_fill f r a (j - 1) (s - r)
    end
  else Ret (a, s).

(** partitions.py:118-136, one resumption of [algorithm_h]. *)
Definition h_next (m : Z) (a : list Z) : outcome (option (list Z)) :=
  do a1 <- pyget a 1; do a0 <- pyget a 0;
  if a1 <? a0 - 1 then
    do a <- pyset a 0 (a0 - 1);
    do a <- pyset a 1 (a1 + 1);
    Ret (Some a)
  else
    do '(j, s) <- h_scan (Z.to_nat m) m a 2 (a0 + a1 - 1);
    if j >=? m then Ret None
    else
      do x <- pyget a j;
      do a <- pyset a j (x + 1);
      do '(a, s) <- h_fill (Z.to_nat j) (x + 1) a (j - 1) s;
      do a <- pyset a 0 s;
      Ret (Some a).

(** partitions.py:108-136, [algorithm_h]. *)
Definition algorithm_h (n m : Z) (fuel : nat) : list (list Z) * gstatus :=
  match pyset (repeat 1 (Z.to_nat m)) 0 (n - m + 1) with
  | Ret a => gen (fun a => a) (h_next m) fuel a
  | Raise e => ([], GRaised e)
  | Diverge => ([], GStuck)
  end.

(** partitions.py:138-152, [backtrack]; the list of yielded values.  The
    nested generators are collected eagerly, [fuel] bounds the recursion depth. *)
Fixpoint backtrack (n : Z) (parts : list Z) (distinct : bool) (num_parts : Z)
  (fuel : nat) (partial_sum : Z) (used : list Z) (num_used last_idx : Z) : outcome (list (list Z)) :=
  if partial_sum =? n then
    if (num_parts =? 0) || (num_used =? num_parts) then Ret [used] else Ret []
  else if partial_sum <? n then
    if negb (num_parts =? 0) && (num_used >=? num_parts) then Ret []
    else
      match fuel with
      | O => Diverge
      | S f =>
          let idx := if last_idx =? 0 then 0 else last_idx + (if distinct then 1 else 0) in
          foldM (fun acc i =>
                   do part <- pyget parts i;
                   do l <- backtrack n parts distinct num_parts f (partial_sum + part) (used ++ [part]) (num_used + 1) i;
                   Ret (acc ++ l))
                (zrange idx (Z.of_nat (length parts))) []
      end
  else Ret [].

Definition as_gen (x : outcome (list (list Z))) : list (list Z) * gstatus :=
  match x with Ret l => (l, GEnded) | Raise e => ([], GRaised e) | Diverge => ([], GMore) end.

(** partitions.py:1-162, [integer_partitions]; the keyword arguments [parts]
    and [num_parts] are [None] when absent. *)
Definition integer_partitions (n : Z) (parts : option (list Z)) (distinct : bool) (num_parts : option Z)
  (fuel : nat) : list (list Z) * gstatus :=
  let ps := match parts with Some l => rev (zsort l) | None => rev (zrange 1 (n + 1)) end in
  let too_many := match num_parts with Some m => m >? n | None => false end in
  let m := match num_parts with Some m => m | None => 0 end in
  if too_many then ([[]], GEnded)
  else if distinct || match parts with Some _ => true | None => false end then
    as_gen (backtrack n ps distinct m fuel 0 [] 0 0)
  else if negb (m =? 0) then algorithm_h n m fuel
  else algorithm_p n fuel.
