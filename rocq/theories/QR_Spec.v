(** * Legendre and Jacobi symbols *)
From Coq Require Import ZArith List Bool.
From Verif Require Import Base.
Import ListNotations.
Open Scope Z_scope.

(** The Legendre symbol: 0 on the multiples of p, 1 on the other squares modulo p, -1 on the rest. *)
Definition legendre (a p : Z) : Z :=
  if a mod p =? 0 then 0 else if existsb (fun x => x * x mod p =? a mod p) (zrange 0 p) then 1 else -1.

(** The Jacobi symbol of a over the number with factorization l. *)
Definition jacobi (a : Z) (l : list (Z * Z)) : Z := zprod (map (fun pe => legendre a (fst pe) ^ snd pe) l).
