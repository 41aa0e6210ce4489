(** * Model of rosemary/graphs/algorithms/degree_sequences.py *)
From Coq Require Import ZArith List Bool.
From Verif Require Import Base Py Lists.
Import ListNotations.
Open Scope Z_scope.

(** degree_sequences.py:73-75: for i in range(d): T[i] -= 1 *)
Fixpoint decrement (d : nat) (T : list Z) : outcome (list Z) :=
  match d, T with
  | O, _ => Ret T
  | S _, [] => Raise IndexError
  | S d', x :: T' => do T'' <- decrement d' T'; Ret (x - 1 :: T'')
  end.

(** degree_sequences.py:56-75, the loop.  [fuel] exceeds the length of T.  The print is not modelled. *)
Fixpoint hh_loop (fuel : nat) (T : list Z) : outcome bool :=
  match fuel with
  | O => Diverge
  | S f =>
      if existsb (fun e => e <? 0) T then Ret false
      else if forallb (fun e => negb (0 <? e)) T then Ret true
      else match rev (zsort T) with
           | [] => Raise IndexError
           | d :: T => do T <- decrement (Z.to_nat d) T; hh_loop f T
           end
  end.

(** degree_sequences.py:1-75, [is_graphic]. *)
Definition is_graphic (S : list Z) : outcome bool :=
  if existsb (fun d => Z.of_nat (length S) <=? d) S then Ret false
  else hh_loop (1 + length S) S.

(** degree_sequences.py:82-89: the rounds k, k+1, ... of the loop; [T] is the list from index k on. *)
Fixpoint eg_loop (k d_sum : Z) (T : list Z) : bool :=
  match T with
  | [] => true
  | t :: T' =>
      let d_sum := d_sum + t in
      if k * (k + 1) + zsum (map (Z.min (k + 1)) T') <? d_sum then false
      else eg_loop (k + 1) d_sum T'
  end.

(** degree_sequences.py:78-89, [is_graphic_erdos_gallai]. *)
Definition is_graphic_erdos_gallai (S : list Z) : bool := eg_loop 0 0 (rev (zsort S)).
