(** * Model of PolyZZ.content, PolyZZ.primitive_part and Polynomial.gcd
    (rosemary/algebra/polynomials/polynomials.py) *)
From Coq Require Import ZArith List Bool.
From Verif Require Import Base Py Core_Model Poly_Model.
Import ListNotations.
Open Scope Z_scope.

(** polynomials.py:410-418, [content]. *)
Definition content (p : list Z) : outcome Z := gcd_list p.

(** polynomials.py:420-436, [primitive_part]. *)
Definition primitive_part (p : list Z) : outcome (list Z) :=
  do c <- gcd_list p;
  let c := if last p 0 <? 0 then - c else c in
  do l <- mapM (fun a => pydiv a c) p;
  Ret (polynomial l).

Section Float.
  (** If the degrees differ by one, h becomes a floating point number at the end of the first round (line 406):
      [overflow g] says that g cannot be converted, and [float_rounds u v r] what becomes of the rest of the
      second round and of the later ones: they end with Polynomial([d]) (line 399, [Ret tt]) or with an exception, as
      v is no PolyZZ in them.  Both are arbitrary. *)
  Context (overflow : Z -> bool) (float_rounds : list Z -> list Z -> list Z -> outcome unit).

  (** polynomials.py:403-406: the new h; [None] is a float. *)
  Definition next_h (dd g h : Z) : outcome (option Z) :=
    if 1 <? dd then do x <- pydiv (g ^ dd) (h ^ (dd - 1)); Ret (Some x)
    else if dd =? 0 then Ret (Some h)
    else if g =? 0 then Raise ZeroDivisionError else if overflow g then Raise OverflowError else Ret None.

  (** polynomials.py:394-406, the loop; [zz] says that v is a PolyZZ, which is the case in the first round only: line
      401 makes a Polynomial, which has no primitive_part.  The degree of v decreases. *)
  Fixpoint gcd_loop (fuel : nat) (zz : bool) (d dd : Z) (u v : list Z) (g : Z) (h : option Z) : outcome (list Z) :=
    match fuel with
    | O => Diverge
    | S f =>
        do '(_, r) <- pseudo_quo_rem u v;
        if p_eq r (Num 0) then
          if zz then do w <- primitive_part v; p_mul w (Num d) else Raise AttributeError
        else if len r - 1 =? 0 then Ret (polynomial [d])
        else
          match h with
          | None => do _ <- float_rounds u v r; Ret (polynomial [d])
          | Some h =>
              do l <- mapM (fun e => pydiv e (g * h ^ dd)) r;
              let g := last v 0 in
              do h <- next_h dd g h;
              gcd_loop f false d dd v (polynomial l) g h
          end
    end.

  (** polynomials.py:374-406, [gcd]; [again] is the call on line 392. *)
  Definition gcd_once (again : list Z -> list Z -> outcome (list Z)) (self other : list Z) : outcome (list Z) :=
    do c1 <- content self;
    do c2 <- content other;
    do d <- gcd c1 c2;
    do u <- primitive_part self;
    do v <- primitive_part other;
    let dd := len u - len v in
    if dd <? 0 then again other self
    else gcd_loop (S (length v)) true d dd u v 1 (Some 1).
  Definition p_gcd : list Z -> list Z -> outcome (list Z) := gcd_once (gcd_once (fun _ _ => Diverge)).
End Float.
