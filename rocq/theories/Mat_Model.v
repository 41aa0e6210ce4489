(** * Model of rosemary/algebra/matrices/matrices.py
    A Matrix is its list of rows; the entries are integers.  The number of columns is the length
    of the first row. *)
From Coq Require Import ZArith List Bool.
From Verif Require Import Base Py Lists.
Import ListNotations.
Open Scope Z_scope.

Definition matrix := list (list Z).
Definition nrows (M : matrix) : Z := Z.of_nat (length M).
Definition ncols (M : matrix) : Z := Z.of_nat (length (hd [] M)).

(** matrices.py:33-43, [Matrix(L)] for a list of rows: len(entries[0]) raises IndexError for the
    empty list. *)
Definition new_matrix (L : matrix) : outcome matrix := match L with [] => Raise IndexError | _ => Ret L end.

(** M[i][j] and M[i][j] = v (matrices.py:76-86) *)
Definition mget (M : matrix) (i j : Z) : outcome Z := do row <- pyget M i; pyget row j.
Definition mset (M : matrix) (i j v : Z) : outcome matrix :=
  do row <- pyget M i; do row <- pyset row j v; pyset M i row.

(** [[0]*c for _ in range(r)] *)
Definition zero_matrix (r c : Z) : matrix := repeat (repeat 0 (Z.to_nat c)) (Z.to_nat r).

(** for i in range(r): for j in range(c): result[i][j] = f(i, j) *)
Definition fill (r c : Z) (f : Z -> Z -> outcome Z) (result : matrix) : outcome matrix :=
  foldM (fun R i => foldM (fun R j => do v <- f i j; mset R i j v) (zrange 0 c) R) (zrange 0 r) result.

(** matrices.py:88-120, [__add__], for a Matrix.  Lines 103-109 compare the dimensions of self with
    themselves. *)
Definition m_add (A B : matrix) : outcome matrix :=
  do R <- fill (nrows A) (ncols A) (fun i j => do x <- mget A i j; do y <- mget B i j; Ret (x + y)) (zero_matrix (nrows A) (ncols A));
  new_matrix R.

(** matrices.py:131-147, [__neg__]. *)
Definition m_neg (A : matrix) : outcome matrix :=
  do R <- fill (nrows A) (ncols A) (fun i j => do x <- mget A i j; Ret (- x)) (zero_matrix (nrows A) (ncols A));
  new_matrix R.

(** matrices.py:149-174, [__sub__], for a Matrix. *)
Definition m_sub (A B : matrix) : outcome matrix :=
  do R <- fill (nrows A) (ncols A) (fun i j => do x <- mget A i j; do y <- mget B i j; Ret (x - y)) (zero_matrix (nrows A) (ncols A));
  new_matrix R.

(** try: ... except: raise ValueError(...) *)
Definition value_error {A} (x : outcome A) : outcome A := match x with Raise _ => Raise ValueError | _ => x end.

(** matrices.py:184-201, [__mul__], and 221-240, [__rmul__], for a number. *)
Definition m_scale (c : Z) (A : matrix) : outcome matrix :=
  value_error (
    do R <- fill (nrows A) (ncols A) (fun i j => do x <- mget A i j; Ret (c * x)) (zero_matrix (nrows A) (ncols A));
    new_matrix R).

(** matrices.py:184-219, [__mul__], for a Matrix. *)
Definition m_mul (A B : matrix) : outcome matrix :=
  if negb (ncols A =? nrows B) then Raise ValueError
  else
    do R <- fill (nrows A) (ncols B)
              (fun i j => foldM (fun total k => do x <- mget A i k; do y <- mget B k j; Ret (total + x * y)) (zrange 0 (ncols A)) 0)
              (zero_matrix (ncols B) (nrows A));
    new_matrix R.

(** the entries of a list whose index is not idx *)
Definition drop_index {A} (idx : Z) (l : list A) : list A :=
  map snd (filter (fun p => negb (fst p =? idx)) (combine (zrange 0 (Z.of_nat (length l))) l)).
(** matrices.py:260-272, [delete_col], and 274-283, [delete_row]. *)
Definition delete_col (idx : Z) (A : matrix) : outcome matrix := new_matrix (map (drop_index idx) A).
Definition delete_row (idx : Z) (A : matrix) : outcome matrix := new_matrix (drop_index idx A).

(** matrices.py:322-324: for i in range(k + 1, ncols): if m[i][k] != 0: break.  The result is the
    value of the variable i afterwards; [iv] is its value before. *)
Fixpoint find_row (m : matrix) (k : Z) (is : list Z) (iv : option Z) : outcome (option Z) :=
  match is with
  | [] => Ret iv
  | i :: is' => do x <- mget m i k; if negb (x =? 0) then Ret (Some i) else find_row m k is' (Some i)
  end.

(** matrices.py:331-332: the exchange of the rows i and k. *)
Definition swap_rows (n k i : Z) (m : matrix) : outcome matrix :=
  foldM (fun m j => do x <- mget m k j; do y <- mget m i j; do m <- mset m i j x; mset m k j y) (zrange k n) m.

(** matrices.py:335-338: the elimination. *)
Definition eliminate (n k pivot den : Z) (m : matrix) : outcome matrix :=
  foldM (fun m i =>
           foldM (fun m j =>
                    do a <- mget m i j; do b <- mget m i k; do c <- mget m k j;
                    do v <- pydiv (pivot * a - b * c) den;
                    mset m i j v) (zrange (k + 1) n) m)
        (zrange (k + 1) n) m.

(** The value of i after a loop [for i in range(a, b)]. *)
Definition after_loop (a b : Z) (iv : option Z) : option Z := if a <? b then Some (b - 1) else iv.

(** matrices.py:318-340: the rounds k.  The result: the value returned and the entries left in the
    matrix, which is overwritten. *)
Fixpoint det_rounds (n : Z) (ks : list Z) (m : matrix) (den sign : Z) (iv : option Z) : outcome (Z * matrix) :=
  match ks with
  | [] => do x <- mget m (n - 1) (n - 1); Ret (sign * x, m)
  | k :: ks' =>
      do pivot <- mget m k k;
      if pivot =? 0 then
        do iv <- find_row m k (zrange (k + 1) n) iv;
        match iv with
        | None => Raise UnboundLocalError
        | Some i =>
            if i =? n - 1 then Ret (0, m)
            else
              do m <- swap_rows n k i m;
              let sign := sign * -1 in
              do pivot <- mget m k k;
              do m <- eliminate n k pivot den m;
              det_rounds n ks' m pivot sign (after_loop (k + 1) n (Some i))
        end
      else
        do m <- eliminate n k pivot den m;
        det_rounds n ks' m pivot sign (after_loop (k + 1) n iv)
  end.

(** matrices.py:285-340, [determinant]. *)
Definition determinant (m : matrix) : outcome (Z * matrix) :=
  if negb (nrows m =? ncols m) then Raise ValueError
  else det_rounds (ncols m) (zrange 0 (ncols m)) m 1 1 None.
