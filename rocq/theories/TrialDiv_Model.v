(** * Model of trial_division, rosemary/number_theory/factorization/algorithms.py *)
From Coq Require Import ZArith List Bool.
From Verif Require Import Base Core_Model PrimeList_Data.
Import ListNotations.
Open Scope Z_scope.

(** algorithms.py:78-82; [inl d] when the loop runs off the table with last value [d]. *)
Fixpoint td_table (n bound : Z) (l : list Z) (d0 : Z) : Z + Z :=
  match l with
  | [] => inl d0
  | d :: l' => if bound <? d then inr n
               else if n mod d =? 0 then inr d
               else td_table n bound l' d
  end.

(** algorithms.py:87, the dictionary [offset] (KeyError outside its keys). *)
Definition wheel_offset (r : Z) : outcome Z :=
  if r =? 1 then Ret 6 else if r =? 7 then Ret 4 else if r =? 11 then Ret 2
  else if r =? 13 then Ret 4 else if r =? 17 then Ret 2 else if r =? 19 then Ret 4
  else if r =? 23 then Ret 6 else if r =? 29 then Ret 2 else Raise KeyError.

(** algorithms.py:90-95, one round of the wheel loop. *)
Definition td_step (n bound d : Z) : Z + outcome Z :=
  if d <=? bound then
    if n mod d =? 0 then inr (Ret d)
    else match wheel_offset (d mod 30) with
         | Ret o => inl (d + o)
         | Raise e => inr (Raise e)
         | Diverge => inr Diverge
         end
  else inr (Ret n).

(** algorithms.py:23-95. *)
Definition trial_division (n : Z) (bound : option Z) : outcome Z :=
  do bound <- match bound with
              | Some b => Ret b
              | None => do s <- integer_sqrt n; Ret (s + 1)
              end;
  match td_table n bound PRIME_LIST 0 with
  | inr r => Ret r
  | inl d => do o <- wheel_offset (d mod 30);
             run (td_step n bound) (bits bound) (d + o)
  end.
