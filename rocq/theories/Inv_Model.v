(** * Model of rosemary/number_theory/arithmetic_functions/inverse_functions.py *)
From Coq Require Import ZArith List Bool.
From Verif Require Import Base Py Dict Lists Factor_Model Arith_Model Primality_Model.
Import ListNotations.
Open Scope Z_scope.

(** inverse_functions.py:83-88; state [(pk, d, mmod, new_pairs)]. *)
Definition pair_step (p a : Z) (s : Z * Z * Z * list (Z * Z)) : (Z * Z * Z * list (Z * Z)) + outcome (list (Z * Z)) :=
  let '(pk, d, mmod, new_pairs) := s in
  if mmod =? 0 then
    inl (pk * p, d / p, d mod p, if (d mod 2 =? 0) || (d =? 1) then new_pairs ++ [(pk * a, d)] else new_pairs)
  else inr (Ret new_pairs).

(** inverse_functions.py:76-89, the body of the loop over the primes. *)
Definition prime_round (pairs : list (Z * Z)) (p : Z) : outcome (list (Z * Z)) :=
  do new_pairs <- foldM (fun new_pairs '(a, b) =>
    if b =? 1 then Ret new_pairs
    else
      do d <- pydiv b (p - 1);
      do mmod <- pymod b (p - 1);
      run (pair_step p a) (bits b) (p, d, mmod, new_pairs)) pairs [];
  Ret (pairs ++ new_pairs).

(** inverse_functions.py:93-97. *)
Definition pair_values (powers_of_two : list Z) (ab : Z * Z) : list Z :=
  let '(a, b) := ab in
  if existsb (Z.eqb b) powers_of_two then 2 * b * a :: (if b =? 1 then [a] else []) else [].

Section Inv.
  (** [factor], with its random choices fixed. *)
  Context (fact : Z -> outcome (list (Z * Z))).

  (** inverse_functions.py:60-100. *)
  Definition phi_inverse_main (n : Z) (fac : list (Z * Z)) : outcome (list Z) :=
    do powers_of_two <- (if n mod 2 =? 0 then
        do pe <- pyget fac 0; Ret (1 :: map (fun i => 2 ^ i) (zrange 1 (snd pe + 1)))
      else Ret [1]);
    do ds <- divisors fact None (Some fac);
    do prime_list <- filterM is_prime (map (fun d => d + 1) (tl ds));
    do pairs <- foldM prime_round (rev prime_list) [(1, n)];
    Ret (zsort (flat_map (pair_values powers_of_two) pairs)).

  (** inverse_functions.py:13-100. *)
  Definition euler_phi_inverse (a : arg) : outcome (list Z) :=
    match a with
    | AInt n =>
        if n =? 1 then Ret [1; 2]
        else if (1 <? n) && (n mod 2 =? 1) then Ret []
        else if n <=? 0 then Raise ValueError
        else do fac <- fact n; phi_inverse_main n fac
    | AFac [] => Raise IndexError
    | AFac ((p, e) :: l) => if 0 <? p then phi_inverse_main (factor_back ((p, e) :: l)) ((p, e) :: l) else Raise ValueError
    end.
End Inv.

(** ** [inverse_phi], with the dictionary of lists as an association list *)

(** [phi_cache[k] += [v]] on a [defaultdict(list)]. *)
Definition lget (d : list (Z * list Z)) (k : Z) : list Z := match dget d k with Some l => l | None => [] end.
Definition ladd (d : list (Z * list Z)) (k v : Z) : list (Z * list Z) := dset d k (lget d k ++ [v]).

(** inverse_functions.py:118-120.  The list may grow while it is traversed, so
    the state is the position in it and the dictionary. *)
Definition cache_step (n p a pk b : Z) (s : nat * list (Z * list Z)) : (nat * list (Z * list Z)) + outcome (list (Z * list Z)) :=
  let '(i, d) := s in
  match nth_error (lget d b) i with
  | None => inr (Ret d)
  | Some x => inl (S i, if negb (x mod p =? 0) && (n mod (a * b) =? 0) then ladd d (a * b) (x * pk) else d)
  end.

(** inverse_functions.py:115-120.  Each step of the traversal of the keys, the
    one that finds the end included, first compares the size of the dictionary
    with the size at the start. *)
Definition cache_keys (n p a pk : Z) (d0 : list (Z * list Z)) : outcome (list (Z * list Z)) :=
  do d <- foldM (fun d b =>
    if negb (length d =? length d0)%nat then Raise RuntimeError
    else if n <? a * b then Ret d
    else run (cache_step n p a pk b) (bits (2 * Z.of_nat (length (lget d b)))) (O, d)) (dkeys d0) d0;
  if negb (length d =? length d0)%nat then Raise RuntimeError else Ret d.

(** inverse_functions.py:111-123; state [(a, pk, phi_cache)]. *)
Definition cache_power (n p : Z) (s : Z * Z * list (Z * list Z)) : (Z * Z * list (Z * list Z)) + outcome (list (Z * list Z)) :=
  let '(a, pk, d) := s in
  if a <=? n then
    match cache_keys n p a pk (if n mod a =? 0 then ladd d a pk else d) with
    | Ret d' => inl (a * p, pk * p, d')
    | Raise e => inr (Raise e)
    | Diverge => inr Diverge
    end
  else inr (Ret d).

Section Inv2.
  Context (fact : Z -> outcome (list (Z * Z))).

  (** inverse_functions.py:103-125. *)
  Definition inverse_phi (n : Z) : outcome (list Z) :=
    do ds <- divisors fact (Some n) None;
    do prime_list <- filterM is_prime (map (fun d => d + 1) ds);
    do phi_cache <- foldM (fun d p => run (cache_power n p) (bits (n + 2)) (p - 1, p, d)) (rev prime_list) [];
    Ret (zsort (lget phi_cache n)).
End Inv2.
