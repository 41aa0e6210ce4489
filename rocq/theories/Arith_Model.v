(** * Model of rosemary/number_theory/arithmetic_functions/functions.py *)
From Coq Require Import ZArith List Bool.
From Verif Require Import Base Core_Model Factor_Model Sieves_Model.
Import ListNotations.
Open Scope Z_scope.

(** The arguments: an integer or a factorization (a list of pairs). *)
Inductive arg := AInt (n : Z) | AFac (l : list (Z * Z)).

Section Arith.
  (** [factor], with its random choices fixed. *)
  Context (fact : Z -> outcome (list (Z * Z))).

  (** functions.py:20-62. *)
  Definition validate_input (a : arg) : outcome (list (Z * Z)) :=
    match a with
    | AInt n => if n =? 1 then Ret [(1, 1)]
                else if n <=? 0 then Raise ValueError
                else fact n
    | AFac [] => Raise IndexError
    | AFac ((p, e) :: l) => if 0 <? p then Ret ((p, e) :: l) else Raise ValueError
    end.

  (** [factorization == [(1, 1)]]. *)
  Definition is_one (l : list (Z * Z)) : bool :=
    match l with
    | [(p, e)] => (p =? 1) && (e =? 1)
    | _ => false
    end.

  (** functions.py:70-140. *)
  Definition euler_phi (a : arg) : outcome Z :=
    do fac <- validate_input a;
    if is_one fac then Ret 1
    else Ret (fold_left (fun prod '(p, e) => prod * (p ^ (e - 1) * (p - 1))) fac 1).

  (** classification.py:230-272. *)
  Definition is_squarefree (a : arg) : outcome bool :=
    do fac <- validate_input a;
    Ret (forallb (fun '(p, e) => e =? 1) fac).

  (** functions.py:143-213. *)
  Definition moebius_mu (a : arg) : outcome Z :=
    do fac <- validate_input a;
    if is_one fac then Ret 1
    else do b <- is_squarefree (AFac fac);
         Ret (if b then (-1) ^ Z.of_nat (length fac) else 0).

  (** functions.py:306-376. *)
  Definition divisor_tau (a : arg) : outcome Z :=
    do fac <- validate_input a;
    if is_one fac then Ret 1
    else Ret (fold_left (fun prod '(p, e) => prod * (e + 1)) fac 1).

  (** functions.py:216-300. *)
  Definition divisor_sigma (a : arg) (k : Z) : outcome Z :=
    if k <? 0 then Raise ValueError
    else if k =? 0 then divisor_tau a
    else
      do fac <- validate_input a;
      if is_one fac then Ret 1
      else foldM (fun prod '(p, e) =>
                    let pk := p ^ k in
                    do q <- pydiv (pk ^ (e + 1) - 1) (pk - 1);
                    Ret (prod * q)) fac 1.

  (** functions.py:446-454. *)
  Definition carmichael_term (pe : Z * Z) : Z :=
    let '(p, e) := pe in
    if negb (p =? 2) then p ^ (e - 1) * (p - 1)
    else if e <=? 2 then Z.shiftl 1 (e - 1)
    else Z.shiftl 1 (e - 2).

  (** functions.py:387-457. *)
  Definition carmichael_lambda (a : arg) : outcome Z :=
    match a with
    | AInt n => if n =? 1 then Ret 1
                else if n <=? 0 then Raise ValueError
                else do fac <- fact n; lcm_list (map carmichael_term fac)
    | AFac [] => Raise IndexError
    | AFac ((p, e) :: l) => if 0 <? p then lcm_list (map carmichael_term ((p, e) :: l)) else Raise ValueError
    end.
End Arith.

(** functions.py:460-505. *)
Definition factorial (n : Z) : outcome Z :=
  if n <? 0 then Raise ValueError
  else if (n =? 0) || (n =? 1) then Ret 1
  else
    let prod := fold_left (fun prod k =>
      let lower := Z.shiftr n k + 1 in
      let upper := Z.shiftr n (k - 1) + 1 in
      let lower := if lower mod 2 =? 0 then lower + 1 else lower in
      let partial := fold_left Z.mul (zrange_step lower upper 2) 1 in
      prod * partial ^ k) (zrange 1 (bit_length n)) 1 in
    do c <- bit_count n;
    Ret (Z.shiftl prod (n - c)).

(** functions.py:508-547; [float_bound] is the float estimate used by [primes_first_n]. *)
Definition primorial (float_bound : Z -> Z) (n : Z) : outcome Z :=
  if n <=? 0 then Raise ValueError
  else do l <- primes_first_n float_bound n;
       Ret (fold_left Z.mul l 1).
