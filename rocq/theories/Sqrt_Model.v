(** * Model of rosemary/number_theory/zn_arithmetic.py: square roots, quadratic congruences;
      and of primes/primality.py: solovay_strassen *)
From Coq Require Import ZArith List Bool.
From Verif Require Import Base Py Lists Core_Model Zn_Model Factor_Model Ord_Model.
Import ListNotations.
Open Scope Z_scope.

(** primality.py:17-69, the base a drawn or given. *)
Definition solovay_strassen (n a : Z) : outcome bool :=
  do j <- jacobi_symbol a n;
  if j =? 0 then Ret false
  else do r <- pymod j n; do v <- pow3 a ((n - 1) / 2) n; Ret (r =? v).

(** zn_arithmetic.py:319-321: the successive draws of d are draw 0, draw 1, ...; at most fuel of them. *)
Fixpoint find_nonresidue (p : Z) (draw : nat -> Z) (i fuel : nat) : outcome Z :=
  match fuel with
  | O => Diverge
  | S fuel' => do j <- jacobi_symbol (draw i) p; if negb (j =? -1) then find_nonresidue p draw (S i) fuel' else Ret (draw i)
  end.

(** zn_arithmetic.py:331-333. *)
Definition shanks_step (A D s p m i : Z) : outcome Z :=
  do v <- pow3 (A * D ^ m) (2 ^ (s - 1 - i)) p;
  Ret (if v =? p - 1 then m + 2 ^ i else m).

(** zn_arithmetic.py:236-339. *)
Definition sqrts_mod_p (draw : nat -> Z) (fuel : nat) (a p : Z) : outcome (list Z) :=
  if p <? 2 then Raise ValueError
  else if p =? 2 then Ret [a mod p]
  else
    let a := a mod p in
    if a =? 0 then Ret [0]
    else
      do j <- jacobi_symbol a p;
      if negb (j =? 1) then Ret []
      else
        do x <-
          (if (p mod 8 =? 3) || (p mod 8 =? 7) then pow3 a ((p + 1) / 4) p
           else if p mod 8 =? 5 then
             do x <- pow3 a ((p + 3) / 8) p;
             if negb (x * x mod p =? a) then do w <- pow3 2 ((p - 1) / 4) p; Ret (x * w mod p) else Ret x
           else
             do d <- find_nonresidue p draw 0 fuel;
             do s <- valuation 2 (p - 1);
             let t := Z.shiftr (p - 1) s in
             do A <- pow3 a t p;
             do D <- pow3 d t p;
             do m <- foldM (shanks_step A D s p) (zrange 0 s) 0;
             do u <- pow3 a ((t + 1) / 2) p;
             do v <- pow3 D (m / 2) p;
             Ret (u * v mod p));
        Ret (zsort [x; p - x]).

(** zn_arithmetic.py:342-412. *)
Definition quadratic_lift (a r p k : Z) : outcome (list Z) :=
  if k <? 1 then Raise ValueError
  else if p <? 2 then Raise ValueError
  else if negb ((r * r - a) mod p ^ k =? 0) then Raise ValueError
  else if negb ((2 * r) mod p =? 0) then
    do inverse <- inverse_mod (2 * r) p;
    let t := (- inverse * ((r * r - a) / p ^ k)) mod p in
    Ret (zsort [r + t * p ^ k])
  else if (r * r - a) mod p ^ (k + 1) =? 0 then Ret (zsort (map (fun t => r + t * p ^ k) (zrange 0 p)))
  else Ret [].

(** zn_arithmetic.py:434-438 and 442-446: one round of lifting. *)
Definition lift_step (a p : Z) (sols : list Z) (e : Z) : outcome (list Z) :=
  do ls <- mapM (fun root => quadratic_lift a root p e) sols; Ret (concat ls).

(** zn_arithmetic.py:415-449. *)
Definition sqrts_mod_pk (draw : nat -> Z) (fuel : nat) (a p k : Z) : outcome (list Z) :=
  if k =? 1 then sqrts_mod_p draw fuel a p
  else
    do sols <-
      (if p =? 2 then
         if k =? 2 then Ret (filter (fun e => e * e mod 4 =? a mod 4) (zrange 0 4))
         else
           let sols := filter (fun e => e * e mod 8 =? a mod 8) (zrange 0 8) in
           match sols with
           | [] => Ret []
           | _ => if 3 <? k then foldM (lift_step a p) (zrange 3 k) sols else Ret sols
           end
       else do sols <- sqrts_mod_p draw fuel a p; foldM (lift_step a p) (zrange 1 k) sols);
    Ret (zsort sols).

(** itertools.product. *)
Fixpoint product {A} (ls : list (list A)) : list (list A) :=
  match ls with
  | [] => [[]]
  | l :: ls' => flat_map (fun x => map (cons x) (product ls')) l
  end.

Section Zn.
  (** The function [factor], and the draws of [sqrts_mod_p] for each prime. *)
  Context (fact : Z -> outcome (list (Z * Z))) (draw : Z -> nat -> Z) (fuel : nat).

  (** zn_arithmetic.py:485-490; the list of roots and the modulus, for each prime power. *)
  Definition root_pairs (a : Z) (pk : Z * Z) : outcome (list (Z * Z)) :=
    let '(p, k) := pk in
    do roots <- sqrts_mod_pk (draw p) fuel a p k; Ret (map (fun r => (r, p ^ k)) roots).

  (** zn_arithmetic.py:452-502. *)
  Definition sqrts_mod_n (a n : Z) (n_factorization : option (list (Z * Z))) : outcome (list Z) :=
    do fac <- match n_factorization with Some l => Ret l | None => fact n end;
    do congruences <- mapM (root_pairs a) fac;
    let moduli := map (fun pk => fst pk ^ snd pk) fac in
    do values <-
      match congruences with
      | [l] => Ret (map fst l)
      | _ => do data <- crt_preconditioning_data moduli; mapM (fun system => chinese_preconditioned system data) (product congruences)
      end;
    Ret (zsort values).

  (** zn_arithmetic.py:841-844; state (a1, a2, d). *)
  Definition split_step (n : Z) (s : Z * Z * Z) : (Z * Z * Z) + outcome (Z * Z) :=
    let '(a1, a2, d) := s in
    if 1 <? d then
      let a1 := a1 * d in
      let a2 := a2 / d in
      match gcd n a2 with
      | Ret d => inl (a1, a2, d)
      | Raise e => inr (Raise e)
      | Diverge => inr Diverge
      end
    else inr (Ret (a1, a2)).

  (** zn_arithmetic.py:784-860; the set comprehension keeps one copy of each residue. *)
  Definition quadratic_congruence (coeffs : Z * Z * Z) (n : Z) (n_factorization : option (list (Z * Z))) : outcome (list Z) :=
    do fac <- match n_factorization with Some l => Ret l | None => fact n end;
    let '(a, b, c) := coeffs in
    let discriminant := b * b - 4 * a * c in
    do g <- gcd (2 * a) n;
    do roots <-
      (if g =? 1 then
         do ys <- sqrts_mod_n discriminant n (Some fac);
         do inverse <- inverse_mod (2 * a) n;
         mapM (fun y => pymod ((y - b) * inverse) n) ys
       else
         do d <- gcd n (4 * a);
         do '(a1, a2) <- run (split_step n) (bits (Z.abs (4 * a))) (1, 4 * a, d);
         do ys <- sqrts_mod_n discriminant (a1 * n) None;
         do xss <- mapM (fun y => linear_congruence (2 * a) (y - b) (a1 * n)) ys;
         do xs <- mapM (fun x => pymod x n) (concat xss);
         Ret (nodup Z.eq_dec xs));
    Ret (zsort roots).

  (** zn_arithmetic.py:186-228. *)
  Definition fibonacci_primitive_roots (p : Z) : outcome (list Z) :=
    if p mod 2 =? 0 then Ret []
    else if p =? 5 then Ret [3]
    else if p <? 5 then Ret []
    else
      do j <- jacobi_symbol 5 p;
      if negb (j =? 1) then Ret []
      else
        do sqrts <- sqrts_mod_p (draw p) fuel 5 p;
        do inverse <- inverse_mod 2 p;
        do quad_roots <- mapM (fun root => pymod ((1 + root) * inverse) p) sqrts;
        do ds <- prime_divisors fact (Some (p - 1)) None;
        do roots <- filterM (fun r => is_primitive_root fact r p (Some (p - 1)) (Some ds)) quad_roots;
        Ret (zsort roots).
End Zn.
