(** * Model of necklaces in rosemary/combinatorics/enumeration/enumeration.py *)
From Coq Require Import ZArith List.
From Verif Require Import Base Factor_Model Arith_Model.
Import ListNotations.
Open Scope Z_scope.

(** enumeration.py:360-405.  [fact] is the function [factor].  With weights, line 393
    calls [gcd], which has two parameters (core.py:7), with one argument. *)
Definition necklaces (fact : Z -> outcome (list (Z * Z))) (n k : Z) (weights : option (list Z)) : outcome Z :=
  match weights with
  | Some (_ :: _) => Raise TypeError
  | _ =>
      do ds <- xdivisors fact (Some n) None;
      do ss <- foldM (fun ss d =>
          do phi <- euler_phi fact (AInt d);
          do q <- pydiv n d;
          Ret (ss + phi * k ^ q)) ds 0;
      pydiv ss n
  end.
