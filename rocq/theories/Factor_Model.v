(** * Model of rosemary/number_theory/factorization/factorization.py and of
      pollard_rho_brent (factorization/algorithms.py) *)
From Coq Require Import ZArith List Bool.
From Verif Require Import Base Dict Core_Model PrimeList_Data Primality_Model Classify_Model Lists.
Import ListNotations.
Open Scope Z_scope.

(** ** pollard_rho_brent, algorithms.py:359-433

    The two random numbers of lines 403-404 are the parameters [c] and [y]. *)

(** [y = (y*y + c) % n]. *)
Definition rho_next (n c y : Z) : Z := (y * y + c) mod n.

(** Lines 411-412: [for i in range(r)]. *)
Definition rho_skip (n c : Z) (r : nat) (y : Z) : Z := Nat.iter r (rho_next n c) y.

(** Lines 416-418: [for i in range(m)], state [(y, prod)]. *)
Definition rho_mul_step (n c x : Z) (s : Z * Z) : Z * Z :=
  let '(y, prod) := s in
  let y := rho_next n c y in
  (y, (prod * (x - y)) mod n).
Definition rho_mul (n c x : Z) (m : nat) (s : Z * Z) : Z * Z := Nat.iter m (rho_mul_step n c x) s.

(** Lines 414-421, one round; state [(k, y, prod)], result [(y, prod, ys, g, k)]. *)
Definition rho_batch (n c x r : Z) (s : Z * Z * Z) : (Z * Z * Z) + outcome (Z * Z * Z * Z) :=
  let '(k, y, prod) := s in
  let ys := y in
  let '(y, prod) := rho_mul n c x (Z.to_nat (Z.min 100 (r - k))) (y, prod) in
  match gcd prod n with
  | Ret g => if (r <=? k) || (1 <? g) then inr (Ret (y, prod, ys, g)) else inl (k + 100, y, prod)
  | Raise e => inr (Raise e)
  | Diverge => inr Diverge
  end.

(** Lines 409-425, one round; state [(y, prod, r)], result [(x, ys, g)]. *)
Definition rho_outer (n c : Z) (s : Z * Z * Z) : (Z * Z * Z) + outcome (Z * Z * Z) :=
  let '(y, prod, r) := s in
  let x := y in
  let y := rho_skip n c (Z.to_nat r) y in
  match run (rho_batch n c x r) (bits (r + 100)) (0, y, prod) with
  | Ret (y, prod, ys, g) => if 1 <? g then inr (Ret (x, ys, g)) else inl (y, prod, r * 2)
  | Raise e => inr (Raise e)
  | Diverge => inr Diverge
  end.

(** Lines 428-432, one round. *)
Definition rho_final (n c x ys : Z) : Z + outcome Z :=
  let ys := rho_next n c ys in
  match gcd (x - ys) n with
  | Ret g => if 1 <? g then inr (Ret g) else inl ys
  | Raise e => inr (Raise e)
  | Diverge => inr Diverge
  end.

(** algorithms.py:359-433; [randint(1, n - 3)] raises ValueError when [n < 4]. *)
Definition pollard_rho_brent (c y n : Z) : outcome Z :=
  if n - 3 <? 1 then Raise ValueError else
  do '(x, ys, g) <- run (rho_outer n c) (bits (bit_length n + 3)) (y, 1, 1);
  if g =? n then run (rho_final n c x) (bits 101) ys else Ret g.

(** ** factor, factorization.py:19-121 *)

(** Lines 103-105 and 116-118: [while n % p == 0: fac[p] += 1; n //= p]. *)
Definition strip_step (p : Z) (s : Z * list (Z * Z)) : (Z * list (Z * Z)) + outcome (Z * list (Z * Z)) :=
  let '(n, fac) := s in
  if n mod p =? 0 then inl (n / p, dadd fac p 1) else inr (Ret (n, fac)).
Definition strip (p n : Z) (fac : list (Z * Z)) : outcome (Z * list (Z * Z)) :=
  run (strip_step p) (bits (n + 1)) (n, fac).

(** Lines 95-105. *)
Fixpoint strip_small (l : list Z) (n : Z) (fac : list (Z * Z)) : outcome (Z * list (Z * Z)) :=
  match l with
  | [] => Ret (n, fac)
  | p :: l' =>
      if n =? 1 then Ret (n, fac)
      else if n <? p * p then Ret (1, dadd fac n 1)
      else do '(n, fac) <- strip p n fac; strip_small l' n fac
  end.

(** Lines 108-118.  [find i m] is the result of the [i]-th call of [_factor], on [m]. *)
Section Find.
  Context (find : nat -> Z -> outcome Z).

  (** Lines 114-115, one round, state [(i, d)]. *)
  Definition refine_step (s : nat * Z) : (nat * Z) + outcome (nat * Z) :=
    let '(i, d) := s in
    match is_probable_prime d with
    | Ret true => inr (Ret (i, d))
    | Ret false => match find i d with
                   | Ret d => inl (S i, d)
                   | Raise e => inr (Raise e)
                   | Diverge => inr Diverge
                   end
    | Raise e => inr (Raise e)
    | Diverge => inr Diverge
    end.

  (** Lines 108-118, one round, state [(i, n, fac)]. *)
  Definition big_step (fuel : nat) (s : nat * Z * list (Z * Z))
    : (nat * Z * list (Z * Z)) + outcome (list (Z * Z)) :=
    let '(i, n, fac) := s in
    if 1 <? n then
      match is_probable_prime n with
      | Ret true => inl (i, 1, dadd fac n 1)
      | Ret false =>
          match (do d <- find i n;
                 do '(i, d) <- run refine_step fuel (S i, d);
                 do '(n, fac) <- strip d n fac;
                 Ret (i, n, fac)) with
          | Ret s => inl s
          | Raise e => inr (Raise e)
          | Diverge => inr Diverge
          end
      | Raise e => inr (Raise e)
      | Diverge => inr Diverge
      end
    else inr (Ret fac).

  (** Lines 89-118, then [sorted(...)] of line 120 with a multiplier.  The keys
      are distinct, so that comparing the pairs compares the keys. *)
  Fixpoint kinsert (x : Z * Z) (l : list (Z * Z)) : list (Z * Z) :=
    match l with
    | [] => [x]
    | y :: l' => if (fst x <? fst y) || ((fst x =? fst y) && (snd x <=? snd y)) then x :: l
                 else y :: kinsert x l'
    end.
  Fixpoint ksort (l : list (Z * Z)) : list (Z * Z) :=
    match l with [] => [] | x :: l' => kinsert x (ksort l') end.

  Definition factor_main (fuel : nat) (n multiplier : Z) : outcome (list (Z * Z)) :=
    let '(n, fac) := if n <? 0 then (- n, [(-1, 1)]) else (n, []) in
    do '(n, fac) <- strip_small PRIME_LIST n fac;
    do fac <- run (big_step fuel) fuel (O, n, fac);
    Ret (ksort (map (fun '(p, e) => (p, e * multiplier)) fac)).

  (** [factor(n)] (power detection is skipped by default). *)
  Definition factor (fuel : nat) (n : Z) : outcome (list (Z * Z)) :=
    if n =? 0 then Raise ValueError else factor_main fuel n 1.

  (** [factor(n, skip_power_detection=False)]. *)
  Definition factor_detect (fuel : nat) (n : Z) : outcome (list (Z * Z)) :=
    if n =? 0 then Raise ValueError else
    do ab <- is_power n;
    match ab with
    | Some (b, m) => factor_main fuel b m
    | None => factor_main fuel n 1
    end.
End Find.

(** The default [_factor]: [pollard_rho_brent] with the [i]-th pair of random numbers. *)
Definition rho_find (rnd : nat -> Z * Z) (i : nat) (n : Z) : outcome Z :=
  pollard_rho_brent (fst (rnd i)) (snd (rnd i)) n.

(** factorization.py:124-156. *)
Definition factor_back (fac : list (Z * Z)) : Z :=
  fold_left (fun pp '(p, e) => pp * p ^ e) fac 1.

(** ** Divisors *)

(** [itertools.product] of the ranges [range(e + 1)]: lexicographic order. *)
Fixpoint exp_tuples (fac : list (Z * Z)) : list (list Z) :=
  match fac with
  | [] => [[]]
  | (p, e) :: fac' => flat_map (fun i => map (cons i) (exp_tuples fac')) (zrange 0 (e + 1))
  end.

(** factorization.py:198-200 and 322-324. *)
Definition tuple_product (ps es : list Z) : Z :=
  fold_left (fun prod '(p, e) => prod * p ^ e) (combine ps es) 1.

(** Lines 184-191, repeated in each function: the factorization to use. *)
Definition get_factorization (fact : Z -> outcome (list (Z * Z))) (n : option Z)
    (factorization : option (list (Z * Z))) : outcome (list (Z * Z)) :=
  match n, factorization with
  | None, None => Raise TypeError
  | Some n, None => fact (Z.abs n)
  | _, Some [] => Raise IndexError
  | _, Some ((p, e) :: l) => Ret (if p =? -1 then l else (p, e) :: l)
  end.

Section Divisors.
  Context (fact : Z -> outcome (list (Z * Z))).

  (** factorization.py:288-325, the list of yielded values. *)
  Definition xdivisors (n : option Z) (factorization : option (list (Z * Z))) : outcome (list Z) :=
    do fac <- get_factorization fact n factorization;
    Ret (map (tuple_product (map fst fac)) (exp_tuples fac)).

  (** factorization.py:159-203. *)
  Definition divisors (n : option Z) (factorization : option (list (Z * Z))) : outcome (list Z) :=
    do fac <- get_factorization fact n factorization;
    Ret (zsort (map (tuple_product (map fst fac)) (exp_tuples fac))).

  (** factorization.py:242-246. *)
  Fixpoint pairs_loop (n : Z) (l : list Z) : outcome (list (Z * Z)) :=
    match l with
    | [] => Ret []
    | d :: l' => do q <- pydiv n d;
                 if q <? d then Ret [] else do r <- pairs_loop n l'; Ret ((d, q) :: r)
    end.
  (** factorization.py:206-248; without [n] the operation [n//d] raises TypeError. *)
  Definition divisor_pairs (n : option Z) (factorization : option (list (Z * Z))) : outcome (list (Z * Z)) :=
    do fac <- get_factorization fact n factorization;
    do l <- divisors n (Some fac);
    match n with
    | Some n => pairs_loop n l
    | None => Raise TypeError
    end.

  (** factorization.py:251-285. *)
  Definition prime_divisors (n : option Z) (factorization : option (list (Z * Z))) : outcome (list Z) :=
    do fac <- get_factorization fact n factorization;
    Ret (map fst fac).

  (** [itertools.combinations(l, k)]. *)
  Fixpoint combs (l : list Z) (k : nat) : list (list Z) :=
    match k, l with
    | O, _ => [[]]
    | S _, [] => []
    | S k', x :: l' => map (cons x) (combs l' k') ++ combs l' k
    end.

  (** factorization.py:328-348, for an integer [n]. *)
  Definition unitary_divisors (n : Z) (factorization : option (list (Z * Z))) : outcome (list Z) :=
    do fac <- get_factorization fact (Some n) factorization;
    let pks := map (fun '(p, k) => p ^ k) fac in
    Ret (zsort ([1; n] ++ flat_map (fun i => map (fun sub => fold_left Z.mul sub 1) (combs pks i))
                              (seq 1 (length pks - 1)))).
End Divisors.
