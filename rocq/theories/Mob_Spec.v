(** * Matrices as values *)
From Coq Require Import ZArith List Bool.
From Verif Require Import Base Py Lists Mat_Model Mob_Model.
Import ListNotations.
Open Scope Z_scope.

(** What a program does if matrices are values: an operation changes at most the matrix it is applied to.
    The state: the matrices by name, and the numbers returned by determinant. *)
Definition vstate := (list matrix * list Z)%type.
Definition vnew (env : list matrix) (ds : list Z) (r : outcome matrix) : outcome vstate := do M <- r; Ret (env ++ [M], ds).
Definition vstep (st : vstate) (op : mop) : outcome vstate :=
  let '(env, ds) := st in
  match op with
  | MNew L => vnew env ds (new_matrix L)
  | MZero r c => vnew env ds (new_matrix (zero_matrix r c))
  | MAdd a b => do A <- named env a; do B <- named env b; vnew env ds (m_add A B)
  | MSub a b => do A <- named env a; do B <- named env b; vnew env ds (m_sub A B)
  | MNeg a => do A <- named env a; vnew env ds (m_neg A)
  | MScale c a => do A <- named env a; vnew env ds (m_scale c A)
  | MMul a b => do A <- named env a; do B <- named env b; vnew env ds (m_mul A B)
  | MDelCol idx a => do A <- named env a; vnew env ds (delete_col idx A)
  | MDelRow idx a => do A <- named env a; vnew env ds (delete_row idx A)
  | MSet a i j v => do A <- named env a; do A' <- mset A i j v; Ret (upd env a A', ds)
  | MDet a => do A <- named env a; do '(d, A') <- determinant A; Ret (upd env a A', ds ++ [d])
  end.
Definition vrun (p : list mop) : outcome vstate := foldM vstep p ([], []).

(** The matrices of a state of the model: what one reads in the objects. *)
Definition contents (h : store) (a : object) : matrix := map (fun r => nth (Z.to_nat r) h []) (rows_of a).

(** The names made from each other by delete_row: [family p] gives for each name of the program p the name its rows came from. *)
Definition root_step (l : list nat) (op : mop) : list nat :=
  match op with
  | MNew _ | MZero _ _ | MAdd _ _ | MSub _ _ | MNeg _ | MScale _ _ | MMul _ _ | MDelCol _ _ => l ++ [length l]
  | MDelRow _ a => l ++ [nth a l (length l)]
  | MSet _ _ _ _ | MDet _ => l
  end.
(** [careful l p]: no operation of p changes a matrix that is in a family with another one; l gives the families before p. *)
Fixpoint careful (l : list nat) (p : list mop) : Prop :=
  match p with
  | [] => True
  | op :: p' =>
      (match op with
       | MSet a _ _ _ | MDet a => forall b, (b < length l)%nat -> nth b l b = nth a l a -> b = a
       | _ => True
       end) /\ careful (root_step l op) p'
  end.
