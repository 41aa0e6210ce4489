(** * Tours of least cost *)
From Coq Require Import ZArith List Permutation.
From Verif Require Import Base.
Import ListNotations.
Open Scope Z_scope.

(** The length of a path under the distances [d]. *)
Fixpoint path_cost (d : Z -> Z -> Z) (p : list Z) : Z :=
  match p with
  | x :: (y :: _) as q => d x y + path_cost d q
  | _ => 0
  end.

(** The length of the closed tour through [p]. *)
Definition tour_cost (d : Z -> Z -> Z) (p : list Z) : Z := path_cost d p + d (last p 0) (hd 0 p).

(** [p] visits each of the cities 0, ..., n-1 once. *)
Definition tour (n : Z) (p : list Z) : Prop := Permutation p (zrange 0 n).

(** The matrix [D] (with [None] for infinity) has n rows and columns and holds the distances [d] off the diagonal. *)
Definition distances (n : Z) (d : Z -> Z -> Z) (D : list (list (option Z))) : Prop :=
  Z.of_nat (length D) = n /\
  (forall i, 0 <= i < n -> Z.of_nat (length (nth (Z.to_nat i) D [])) = n) /\
  (forall i j, 0 <= i < n -> 0 <= j < n -> i <> j -> nth (Z.to_nat j) (nth (Z.to_nat i) D []) None = Some (d i j)).
