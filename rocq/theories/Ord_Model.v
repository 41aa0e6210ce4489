(** * Model of rosemary/number_theory/zn_arithmetic.py: orders, primitive roots, logarithms *)
From Coq Require Import ZArith List Bool.
From Verif Require Import Base Py Dict Lists Core_Model Factor_Model Arith_Model.
Import ListNotations.
Open Scope Z_scope.

(** The builtin pow(a, e, n), for e >= 0. *)
Definition pow3 (a e n : Z) : outcome Z := if n =? 0 then Raise ValueError else Ret (a ^ e mod n).

Section Ord.
  (** The function [factor], with its random choices fixed. *)
  Context (fact : Z -> outcome (list (Z * Z))).

  (** zn_arithmetic.py:93-97. *)
  Fixpoint no_power_is_1 (a n phi : Z) (ds : list Z) : outcome bool :=
    match ds with
    | [] => Ret true
    | d :: ds' =>
        do e <- pydiv phi d; do v <- pow3 a e n;
        if v =? 1 then Ret false else no_power_is_1 a n phi ds'
    end.

  (** The optional arguments, lines 87-91. *)
  Definition default_phi (phi : option Z) (compute : outcome Z) : outcome Z := match phi with Some v => Ret v | None => compute end.
  Definition default_list (l : option (list Z)) (compute : outcome (list Z)) : outcome (list Z) := match l with Some v => Ret v | None => compute end.

  (** zn_arithmetic.py:25-97. *)
  Definition is_primitive_root (a n : Z) (phi : option Z) (phi_divisors : option (list Z)) : outcome bool :=
    if n <=? 1 then Raise ValueError
    else if (4 <? n) && (n mod 4 =? 0) then Ret false
    else
      do g <- gcd a n;
      if negb (g =? 1) then Ret false
      else
        do phi <- default_phi phi (euler_phi fact (AInt n));
        do ds <- default_list phi_divisors (prime_divisors fact (Some phi) None);
        no_power_is_1 a n phi ds.

  (** zn_arithmetic.py:181-183; None: the loop ends without a return. *)
  Fixpoint first_root (n phi : Z) (ds : list Z) (gs : list Z) : outcome (option Z) :=
    match gs with
    | [] => Ret None
    | g :: gs' => do b <- is_primitive_root g n (Some phi) (Some ds); if b then Ret (Some g) else first_root n phi ds gs'
    end.

  (** zn_arithmetic.py:100-183. *)
  Definition primitive_root (n : Z) (n_factorization : option (list (Z * Z))) (phi : option Z) (phi_divisors : option (list Z)) : outcome (option Z) :=
    do fac <- match n_factorization with Some l => Ret l | None => fact n end;
    if (n mod 4 =? 0) && negb (n =? 4) then Raise ValueError
    else if (2 <? length fac)%nat then Raise ValueError
    else if (n mod 2 =? 1) && (1 <? length fac)%nat then Raise ValueError
    else
      do phi <- default_phi phi (euler_phi fact (AFac fac));
      do ds <- default_list phi_divisors (prime_divisors fact (Some phi) None);
      first_root n phi ds (zrange 1 n).

  (** zn_arithmetic.py:725-727. *)
  Fixpoint first_exponent (a n : Z) (ds : list Z) : outcome (option Z) :=
    match ds with
    | [] => Ret None
    | d :: ds' => do v <- pow3 a d n; if v =? 1 then Ret (Some d) else first_exponent a n ds'
    end.

  (** zn_arithmetic.py:686-727. *)
  Definition multiplicative_order (a n : Z) (phi : option Z) (phi_divisors : option (list Z)) : outcome (option Z) :=
    do g <- gcd a n;
    if negb (g =? 1) then Raise ValueError
    else
      do phi <- default_phi phi (euler_phi fact (AInt n));
      do ds <- default_list phi_divisors (divisors fact (Some phi) None);
      first_exponent a n ds.

  (** zn_arithmetic.py:541-542; pow(None, ...) is a TypeError. *)
  Definition default_root (p : Z) (g : option Z) : outcome Z :=
    match g with
    | Some g => Ret g
    | None => do r <- primitive_root p None (Some (p - 1)) None; match r with Some g => Ret g | None => Raise TypeError end
    end.

  (** zn_arithmetic.py:548-552: d rounds of roots.append(val); val = (val*h) % p. *)
  Definition power_list_step (h p : Z) (s : list Z * Z) (_ : Z) : outcome (list Z * Z) :=
    let '(roots, val) := s in do v <- pymod (val * h) p; Ret (roots ++ [val], v).

  (** zn_arithmetic.py:505-554. *)
  Definition nth_roots_of_unity_mod_p (n p : Z) (g : option Z) : outcome (list Z) :=
    if p =? 2 then Ret [1]
    else
      do g <- default_root p g;
      do d <- gcd n (p - 1);
      do e <- pydiv (p - 1) d;
      do h <- pow3 g e p;
      do '(roots, _) <- foldM (power_list_step h p) (zrange 0 d) ([], 1);
      Ret (zsort roots).

  (** zn_arithmetic.py:557-608. *)
  Definition nth_roots_of_minus1_mod_p (n p : Z) (g : option Z) : outcome (list Z) :=
    if p =? 2 then Ret [1]
    else
      do d <- gcd n (p - 1);
      do e <- pydiv (p - 1) d;
      if negb (e mod 2 =? 0) then Ret []
      else
        do g <- default_root p g;
        do e2 <- pydiv (p - 1) (2 * d);
        do root <- pow3 g e2 p;
        do roots <- nth_roots_of_unity_mod_p n p (Some g);
        do all <- mapM (fun h => pymod (root * h) p) roots;
        Ret (zsort all).
End Ord.

(** zn_arithmetic.py:666-670: the table. *)
Definition table_step (am p : Z) (s : list (Z * Z) * Z) (k : Z) : outcome (list (Z * Z) * Z) :=
  let '(cache, val) := s in do v <- pymod (val * am) p; Ret (dset cache val k, v).
(** zn_arithmetic.py:672-678: the search. *)
Fixpoint log_search (cache : list (Z * Z)) (a p m : Z) (ks : list Z) (val x : Z) : outcome Z :=
  match ks with
  | [] => Ret x
  | k :: ks' => match dget cache val with
                | Some j => Ret (j * m - k)
                | None => do v <- pymod (val * a) p; log_search cache a p m ks' v x
                end
  end.

(** zn_arithmetic.py:611-683. *)
Definition discrete_log (a b p : Z) : outcome Z :=
  do r <- integer_sqrt p;
  let m := r + 1 in
  do am <- pow3 a m p;
  do '(cache, _) <- foldM (table_step am p) (zrange 1 (m + 1)) ([], am);
  do x <- log_search cache a p m (zrange 0 (m + 1)) b 1;
  do v <- pow3 a x p;
  do w <- pymod b p;
  if v =? w then Ret x else Raise ValueError.
