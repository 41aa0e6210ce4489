(** * Model of the operators of rosemary/algebra/matrices/matrices.py with mixed operands

    The operands of + - * are numbers (integers) and matrices.  Python first calls the method of the left operand; if that is a
    number it does not know matrices, and the reflected method of the right operand is called. *)
From Coq Require Import ZArith List Bool.
From Verif Require Import Base Py Lists Mat_Model.
Import ListNotations.
Open Scope Z_scope.

Inductive operand := Num (x : Z) | Mat (M : matrix).
Definition as_mat (r : outcome matrix) : outcome operand := do M <- r; Ret (Mat M).

(** matrices.py:88-120, [__add__].  For a number: self.variable does not exist, the AttributeError is caught and a ValueError
    raised (95-101). *)
Definition mat_add (A : matrix) (other : operand) : outcome operand :=
  match other with
  | Num _ => value_error (Raise AttributeError)
  | Mat B => as_mat (m_add A B)
  end.
(** matrices.py:122-129, [__radd__]. *)
Definition mat_radd (A : matrix) (other : operand) : outcome operand := mat_add A other.

(** matrices.py:149-174, [__sub__]: 157-162 for a number, as in [__add__]. *)
Definition mat_sub (A : matrix) (other : operand) : outcome operand :=
  match other with
  | Num _ => value_error (Raise AttributeError)
  | Mat B => as_mat (m_sub A B)
  end.
(** matrices.py:176-182, [__rsub__]. *)
Definition mat_rsub (A : matrix) (other : operand) : outcome operand := do N <- m_neg A; mat_add N other.

(** matrices.py:184-219, [__mul__]. *)
Definition mat_mul (A : matrix) (other : operand) : outcome operand :=
  match other with
  | Num c => as_mat (m_scale c A)
  | Mat B => as_mat (m_mul A B)
  end.

(** matrices.py:221-258, [__rmul__].  For a Matrix, which Python never passes here by itself, the loops of 251-256. *)
Definition m_rmul (A B : matrix) : outcome matrix :=
  if negb (ncols B =? nrows A) then Raise ValueError
  else
    do R <- fill (nrows B) (ncols A)
              (fun i j => foldM (fun total k => do x <- mget A i k; do y <- mget B k j; Ret (total + x * y)) (zrange 0 (ncols B)) 0)
              (zero_matrix (nrows A) (ncols B));
    new_matrix R.
Definition mat_rmul (A : matrix) (other : operand) : outcome operand :=
  match other with
  | Num c => as_mat (m_scale c A)
  | Mat B => as_mat (m_rmul A B)
  end.

(** x + y, x - y, x * y *)
Definition op_add (x y : operand) : outcome operand :=
  match x, y with
  | Num a, Num b => Ret (Num (a + b))
  | Num _, Mat B => mat_radd B x
  | Mat A, _ => mat_add A y
  end.
Definition op_sub (x y : operand) : outcome operand :=
  match x, y with
  | Num a, Num b => Ret (Num (a - b))
  | Num _, Mat B => mat_rsub B x
  | Mat A, _ => mat_sub A y
  end.
Definition op_mul (x y : operand) : outcome operand :=
  match x, y with
  | Num a, Num b => Ret (Num (a * b))
  | Num _, Mat B => mat_rmul B x
  | Mat A, _ => mat_mul A y
  end.

(** sum(l, start) *)
Definition op_sum (l : list operand) (start : operand) : outcome operand := foldM op_add l start.
