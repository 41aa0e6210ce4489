(** * Model of rosemary/data_structures/bit_sieve.py *)
From Coq Require Import ZArith List Bool.
From Verif Require Import Base.
Import ListNotations.
Open Scope Z_scope.

(** ** BITSieve (lines 1-69).  The dictionaries keyed by pairs are modelled as
    finite functions; their iteration order is never used. *)
Record bit := Bit { bA : Z -> Z -> option Z; bn : Z; bparent : Z -> Z -> option (Z * Z) }.

Definition set2 {V} (A : Z -> Z -> option V) (i j : Z) (v : V) : Z -> Z -> option V :=
  fun i' j' => if (i' =? i) && (j' =? j) then Some v else A i' j'.
Definition get2 {V} (A : Z -> Z -> option V) (i j : Z) : outcome V :=
  match A i j with Some v => Ret v | None => Raise KeyError end.

(** bit_sieve.py:14-17, the body of the inner loop of [__init__]. *)
Definition bit_fill (i : Z) (st : (Z -> Z -> option Z) * (Z -> Z -> option (Z * Z))) (j : Z) :=
  let '(A, P) := st in
  do u <- get2 A (i - 1) (2 * j - 1);
  do v <- get2 A (i - 1) (2 * j);
  Ret (set2 A i j (u + v), set2 (set2 P (i - 1) (2 * j - 1) (i, j)) (i - 1) (2 * j) (i, j)).

(** bit_sieve.py:12-19: [while n >> i]. *)
Fixpoint bit_levels (fuel : nat) (n i : Z) (st : (Z -> Z -> option Z) * (Z -> Z -> option (Z * Z))) :=
  if Z.shiftr n i =? 0 then Ret st
  else match fuel with
       | O => Diverge
       | S f => do st <- foldM (bit_fill i) (zrange 1 (Z.shiftr n i + 1)) st;
                bit_levels f n (i + 1) st
       end.

(** bit_sieve.py:2-23, [__init__]. *)
Definition bit_init (n : Z) : outcome bit :=
  let A := fold_left (fun A j => set2 A 0 j 1) (zrange 1 (n + 1)) (fun _ _ => None) in
  do '(A, P) <- bit_levels (Z.to_nat (bit_length n)) n 1 (A, fun _ _ => None);
  Ret (Bit A n P).

(** bit_sieve.py:25-26, [entries]. *)
Fixpoint bit_entries_from (A : Z -> Z -> option Z) (l : list Z) : outcome (list Z) :=
  match l with
  | [] => Ret []
  | i :: l' => do v <- get2 A 0 i; do r <- bit_entries_from A l'; Ret (v :: r)
  end.
Definition bit_entries (b : bit) : outcome (list Z) := bit_entries_from (bA b) (zrange 1 (bn b + 1)).

(** bit_sieve.py:53-55: [while pos in parent]. *)
Fixpoint bit_climb (fuel : nat) (P : Z -> Z -> option (Z * Z)) (A : Z -> Z -> option Z) (i j : Z) :
    outcome (Z -> Z -> option Z) :=
  match P i j with
  | None => Ret A
  | Some (i', j') =>
      match fuel with
      | O => Diverge
      | S f => do v <- get2 A i' j';
               bit_climb f P (set2 A i' j' (v - 1)) i' j'
      end
  end.

(** bit_sieve.py:46-55, one multiple. *)
Definition bit_mark1 (b : bit) (A : Z -> Z -> option Z) (x : Z) : outcome (Z -> Z -> option Z) :=
  do v <- get2 A 0 x;
  if v =? 0 then Ret A
  else bit_climb (Z.to_nat (bit_length (bn b))) (bparent b) (set2 A 0 x 0) 0 x.

(** bit_sieve.py:37-55, [mark_multiples]; [range] with step 0 raises. *)
Definition bit_mark (b : bit) (p : Z) : outcome bit :=
  if p =? 0 then Raise ValueError
  else do A <- foldM (bit_mark1 b) (if 0 <? p then zrange_step p (bn b + 1) p else []) (bA b);
       Ret (Bit A (bn b) (bparent b)).

(** bit_sieve.py:57-69, [partial_sum]: [while m]. *)
Fixpoint psum (fuel : nat) (get : Z -> Z -> outcome Z) (m i total : Z) : outcome Z :=
  if m =? 0 then Ret total
  else match fuel with
       | O => Diverge
       | S f => do total <- (if m mod 2 =? 0 then Ret total else do v <- get i m; Ret (total + v));
                psum f get (Z.shiftr m 1) (i + 1) total
       end.
Definition bit_partial_sum (b : bit) (m : Z) : outcome Z :=
  psum (Z.to_nat (bit_length m)) (get2 (bA b)) m 0 0.

(** ** BITSieveArray (lines 72-120): a list of lists. *)
Record bita := BitA { aA : list (list Z); an : Z }.

Definition aget (A : list (list Z)) (i j : Z) : outcome Z :=
  do row <- pyget A i; pyget row j.

(** bit_sieve.py:82-84: the row of level [i], computed from the row below. *)
Definition arow (below : list Z) (k : Z) : outcome (list Z) :=
  do r <- foldM (fun acc j => do u <- pyget below (2 * j - 1);
                              do v <- pyget below (2 * j); Ret (acc ++ [u + v]))
                (zrange 1 (k + 1)) [];
  Ret (0 :: r).

(** bit_sieve.py:80-86.  Row [i] is written left to right into zeros, of which
    only position 0 survives. *)
Fixpoint abuild (fuel : nat) (n i : Z) (A : list (list Z)) : outcome (list (list Z)) :=
  if Z.shiftr n i =? 0 then Ret A
  else match fuel with
       | O => Diverge
       | S f => do below <- pyget A (i - 1);
                do row <- arow below (Z.shiftr n i);
                abuild f n (i + 1) (A ++ [row])
       end.

(** bit_sieve.py:73-89, [__init__] ([n >= 0]; a negative n has no [A[0][0]]). *)
Definition bita_init (n : Z) : outcome bita :=
  do A0 <- pyset (repeat 1 (Z.to_nat (n + 1))) 0 0;
  do A <- abuild (Z.to_nat (bit_length n)) n 1 [A0];
  Ret (BitA A n).

(** bit_sieve.py:102-106: [for x in range(len(A))] with the break. *)
Fixpoint amark1 (rows : list (list Z)) (y : Z) : outcome (list (list Z)) :=
  match rows with
  | [] => Ret []
  | row :: rest =>
      if Z.of_nat (length row) <=? y then Ret rows
      else do v <- pyget row y;
           do row' <- pyset row y (v - 1);
           do rest' <- amark1 rest ((y + 1) / 2);
           Ret (row' :: rest')
  end.

(** bit_sieve.py:94-106, [mark_multiples]. *)
Definition bita_mark (b : bita) (p : Z) : outcome bita :=
  if p =? 0 then Raise ValueError
  else do A <- foldM (fun A x => do v <- aget A 0 x;
                                 if v =? 0 then Ret A else amark1 A x)
                     (if 0 <? p then zrange_step p (an b + 1) p else []) (aA b);
       Ret (BitA A (an b)).

(** bit_sieve.py:108-120, [partial_sum]. *)
Definition bita_partial_sum (b : bita) (m : Z) : outcome Z :=
  psum (Z.to_nat (bit_length m)) (aget (aA b)) m 0 0.
