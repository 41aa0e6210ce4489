(** * Model of the factorization arguments of is_power, rosemary/number_theory/classification.py *)
From Coq Require Import ZArith List Bool.
From Verif Require Import Base Core_Model.
Import ListNotations.
Open Scope Z_scope.

(** classification.py:184-191, [is_power] of a factorization with an exponent [k >= 1]. *)
Fixpoint kth_root_loop (k : Z) (l : list (Z * Z)) (kth_root : Z) : outcome (option (Z * Z)) :=
  match l with
  | [] => Ret (Some (kth_root, k))
  | (p, e) :: l' => if e mod k =? 0 then kth_root_loop k l' (kth_root * p ^ (e / k)) else Ret None
  end.

(** classification.py:176-201.  [k = None] is the default argument; the result [False] is [None]. *)
Definition is_power_fac (l : list (Z * Z)) (k : option Z) : outcome (option (Z * Z)) :=
  match k with
  | Some k0 => if k0 <? 1 then Raise ValueError else
      match l with
      | [] => Raise IndexError
      | (p, _) :: _ => if p =? -1 then Raise ValueError else kth_root_loop k0 l 1
      end
  | None =>
      match l with
      | [] => Raise IndexError
      | (p, _) :: _ =>
          if p =? -1 then Raise ValueError else
          do d <- gcd_list (map snd l);
          if d =? 1 then Ret None
          else Ret (Some (fold_left (fun kth_root '(p, e) => kth_root * p ^ (e / d)) l 1, d))
      end
  end.
