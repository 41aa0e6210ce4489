(** * Model of rosemary/number_theory/classification.py (integer arguments) *)
From Coq Require Import ZArith List Bool.
From Verif Require Import Base Core_Model.
Import ListNotations.
Open Scope Z_scope.

(** classification.py:25-27 and 29-31: [q = [0]*m; for k in range(c): q[k*k % m] = 1]. *)
Definition square_table (m c : Z) : outcome (list Z) :=
  foldM (fun q k => pyset q ((k * k) mod m) 1) (zrange 0 c) (repeat 0 (Z.to_nat m)).

(** classification.py:33-51; the result [False] is [None], the root [q] is [Some q]. *)
Definition IsSquare_is_square (n : Z) : outcome (option Z) :=
  do q64 <- square_table 64 32;
  do b <- pyget q64 (n mod 64);
  if b =? 0 then Ret None else
  do q45045 <- square_table 45045 22522;
  do b <- pyget q45045 (n mod 45045);
  if b =? 0 then Ret None else
  do q <- integer_sqrt n;
  Ret (if q * q =? n then Some q else None).

(** classification.py:54, integer argument (lines 101-106). *)
Definition is_square (n : Z) : outcome (option Z) :=
  if n <? 0 then Ret None
  else if (n =? 0) || (n =? 1) then Ret (Some n)
  else IsSquare_is_square n.

(** classification.py:90-100, [is_square] of a factorization. *)
Fixpoint is_square_fac_loop (l : list (Z * Z)) (sqrt : Z) : outcome (option Z) :=
  match l with
  | [] => Ret (Some sqrt)
  | (p, e) :: l' => if e mod 2 =? 1 then Ret None else is_square_fac_loop l' (sqrt * p ^ (e / 2))
  end.
Definition is_square_fac (l : list (Z * Z)) : outcome (option Z) :=
  match l with
  | [] => Raise IndexError
  | (p, _) :: _ => if p =? -1 then Ret None else is_square_fac_loop l 1
  end.

(** classification.py:109-116, one round. *)
Definition is_power2_step (n k : Z) : Z + outcome (option (Z * Z)) :=
  if 2 ^ k <=? n then
    match integer_nth_root k n with
    | Ret r => if r ^ k =? n then inr (Ret (Some (r, k))) else inl (k + 1)
    | Raise e => inr (Raise e)
    | Diverge => inr Diverge
    end
  else inr (Ret None).
Definition is_power2 (n : Z) : outcome (option (Z * Z)) :=
  run (is_power2_step n) (bits (bit_length n)) 2.

(** classification.py:206-212, [is_power(n, k)] with an exponent. *)
Definition is_power_k (n k : Z) : outcome (option (Z * Z)) :=
  if k <? 1 then Raise ValueError
  else if n <? 1 then Raise ValueError
  else if k =? 1 then Ret (Some (n, 1))
  else do root <- integer_nth_root k n;
       Ret (if root ^ k =? n then Some (root, k) else None).

(** classification.py:214-227, the search over [k]; [inner] is the loop 219-225. *)
Fixpoint is_power_search (n : Z) (ks : list Z) (inner : Z -> Z -> outcome (option (Z * Z)))
  : outcome (option (Z * Z)) :=
  match ks with
  | [] => Ret None
  | k :: ks' =>
      do base <- integer_nth_root k n;
      if base ^ k =? n then inner base k else is_power_search n ks' inner
  end.

(** classification.py:203-227, [is_power(n)].  The recursive call of line 220 uses
    one unit of [fuel]; the loop of lines 219-225 is a recursion on the same fuel. *)
Fixpoint is_power_fuel (fuel : nat) (n : Z) : outcome (option (Z * Z)) :=
  match fuel with
  | O => Diverge
  | S f =>
      if n <? 1 then Raise ValueError
      else is_power_search n (zrange 2 (bit_length n + 1))
        ((fix inner (g : nat) (base exponent : Z) {struct g} : outcome (option (Z * Z)) :=
            match g with
            | O => Diverge
            | S g' =>
                do next_step <- is_power_fuel f base;
                match next_step with
                | Some (b, e) => inner g' b (exponent * e)
                | None => Ret (Some (base, exponent))
                end
            end) fuel)
  end.
Definition is_power (n : Z) : outcome (option (Z * Z)) :=
  is_power_fuel (S (Z.to_nat (bit_length n))) n.

(** classification.py:287-295. *)
Definition is_factorial_step (n : Z) (s : Z * Z) : (Z * Z) + outcome bool :=
  let '(product, k) := s in
  if product <? n then inl (product * k, k + 1) else inr (Ret (product =? n)).
Definition is_factorial (n : Z) : outcome bool :=
  run (is_factorial_step n) (bits (bit_length n + 2)) (1, 2).
