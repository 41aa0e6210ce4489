(** * Model of Matrix objects (rosemary/algebra/matrices/matrices.py) in a store

    In Mat_Model a matrix is a value.  Here its rows are lists in a store, named by their positions there, so that two objects
    may share rows.  An object has the attributes of matrices.py:41-43: the list of its rows, and the numbers of rows and
    columns found when it was made. *)
From Coq Require Import ZArith List Bool.
From Verif Require Import Base Py Lists Mat_Model.
Import ListNotations.
Open Scope Z_scope.

Definition store := list (list Z).
Definition object := (list Z * Z * Z)%type.
Definition rows_of (a : object) : list Z := fst (fst a).
Definition nr_of (a : object) : Z := snd (fst a).
Definition nc_of (a : object) : Z := snd a.

(** New lists, with the given contents. *)
Definition alloc (h : store) (L : list (list Z)) : store * list Z :=
  (h ++ L, zrange (Z.of_nat (length h)) (Z.of_nat (length h) + Z.of_nat (length L))).

(** matrices.py:37, 41-43, [Matrix(L)] for a list of lists: the list is copied, its rows are not. *)
Definition new_object (h : store) (rows : list Z) : outcome object :=
  do r0 <- pyget rows 0; do row <- pyget h r0;
  Ret (rows, Z.of_nat (length rows), Z.of_nat (length row)).

(** M[i][j] and M[i, j] (matrices.py:76-80); M[i][j] = v and M[i, j] = v (82-86). *)
Definition hget (h : store) (rows : list Z) (i j : Z) : outcome Z := do r <- pyget rows i; do row <- pyget h r; pyget row j.
Definition hset (h : store) (rows : list Z) (i j v : Z) : outcome store :=
  do r <- pyget rows i; do row <- pyget h r; do row <- pyset row j v; pyset h r row.

(** for i in range(r): for j in range(c): result[i][j] = f(i, j) *)
Definition hfill (r c : Z) (f : store -> Z -> Z -> outcome Z) (result : list Z) (h : store) : outcome store :=
  foldM (fun h i => foldM (fun h j => do v <- f h i j; hset h result i j v) (zrange 0 c) h) (zrange 0 r) h.

(** result = [[0]*c for _ in range(r)], the loops, and parent_class(result) *)
Definition hbuild (h : store) (r c r' c' : Z) (f : store -> Z -> Z -> outcome Z) : outcome (store * object) :=
  let '(h, result) := alloc h (zero_matrix r c) in
  do h <- hfill r' c' f result h;
  do o <- new_object h result; Ret (h, o).

(** matrices.py:88-120, 149-174, 131-147: [__add__] and [__sub__] for a Matrix, [__neg__]. *)
Definition h_add (h : store) (a b : object) : outcome (store * object) :=
  hbuild h (nr_of a) (nc_of a) (nr_of a) (nc_of a)
    (fun h i j => do x <- hget h (rows_of a) i j; do y <- hget h (rows_of b) i j; Ret (x + y)).
Definition h_sub (h : store) (a b : object) : outcome (store * object) :=
  hbuild h (nr_of a) (nc_of a) (nr_of a) (nc_of a)
    (fun h i j => do x <- hget h (rows_of a) i j; do y <- hget h (rows_of b) i j; Ret (x - y)).
Definition h_neg (h : store) (a : object) : outcome (store * object) :=
  hbuild h (nr_of a) (nc_of a) (nr_of a) (nc_of a) (fun h i j => do x <- hget h (rows_of a) i j; Ret (- x)).

(** matrices.py:184-219, [__mul__], and 221-240, [__rmul__] with a number. *)
Definition h_scale (h : store) (c : Z) (a : object) : outcome (store * object) :=
  value_error (hbuild h (nr_of a) (nc_of a) (nr_of a) (nc_of a) (fun h i j => do x <- hget h (rows_of a) i j; Ret (c * x))).
Definition h_mul (h : store) (a b : object) : outcome (store * object) :=
  if negb (nc_of a =? nr_of b) then Raise ValueError
  else hbuild h (nc_of b) (nr_of a) (nr_of a) (nc_of b)
         (fun h i j => foldM (fun total k => do x <- hget h (rows_of a) i k; do y <- hget h (rows_of b) k j; Ret (total + x * y))
                         (zrange 0 (nc_of a)) 0).

(** matrices.py:260-272, [delete_col]: new rows. *)
Definition h_delete_col (h : store) (idx : Z) (a : object) : outcome (store * object) :=
  do rows <- mapM (pyget h) (rows_of a);
  let '(h, result) := alloc h (map (drop_index idx) rows) in
  do o <- new_object h result; Ret (h, o).

(** matrices.py:274-283, [delete_row]: the rows of self. *)
Definition h_delete_row (h : store) (idx : Z) (a : object) : outcome (store * object) :=
  do o <- new_object h (drop_index idx (rows_of a)); Ret (h, o).

(** matrices.py:322-324, 331-332, 335-338, as in Mat_Model. *)
Fixpoint h_find_row (h : store) (m : list Z) (k : Z) (is : list Z) (iv : option Z) : outcome (option Z) :=
  match is with
  | [] => Ret iv
  | i :: is' => do x <- hget h m i k; if negb (x =? 0) then Ret (Some i) else h_find_row h m k is' (Some i)
  end.
Definition h_swap_rows (m : list Z) (n k i : Z) (h : store) : outcome store :=
  foldM (fun h j => do x <- hget h m k j; do y <- hget h m i j; do h <- hset h m i j x; hset h m k j y) (zrange k n) h.
Definition h_eliminate (m : list Z) (n k pivot den : Z) (h : store) : outcome store :=
  foldM (fun h i =>
           foldM (fun h j =>
                    do a <- hget h m i j; do b <- hget h m i k; do c <- hget h m k j;
                    do v <- pydiv (pivot * a - b * c) den;
                    hset h m i j v) (zrange (k + 1) n) h)
        (zrange (k + 1) n) h.

(** matrices.py:318-340. *)
Fixpoint h_rounds (m : list Z) (n : Z) (ks : list Z) (h : store) (den sign : Z) (iv : option Z) : outcome (Z * store) :=
  match ks with
  | [] => do x <- hget h m (n - 1) (n - 1); Ret (sign * x, h)
  | k :: ks' =>
      do pivot <- hget h m k k;
      if pivot =? 0 then
        do iv <- h_find_row h m k (zrange (k + 1) n) iv;
        match iv with
        | None => Raise UnboundLocalError
        | Some i =>
            if i =? n - 1 then Ret (0, h)
            else
              do h <- h_swap_rows m n k i h;
              let sign := sign * -1 in
              do pivot <- hget h m k k;
              do h <- h_eliminate m n k pivot den h;
              h_rounds m n ks' h pivot sign (after_loop (k + 1) n (Some i))
        end
      else
        do h <- h_eliminate m n k pivot den h;
        h_rounds m n ks' h pivot sign (after_loop (k + 1) n iv)
  end.
Definition h_determinant (h : store) (a : object) : outcome (Z * store) :=
  if negb (nr_of a =? nc_of a) then Raise ValueError
  else h_rounds (rows_of a) (nc_of a) (zrange 0 (nc_of a)) h 1 1 None.

(** Programs: each operation that gives a matrix gives it a new name, the next number. *)
Inductive mop :=
| MNew (L : list (list Z)) | MZero (r c : Z) | MAdd (a b : nat) | MSub (a b : nat) | MNeg (a : nat) | MScale (c : Z) (a : nat)
| MMul (a b : nat) | MDelCol (idx : Z) (a : nat) | MDelRow (idx : Z) (a : nat) | MSet (a : nat) (i j v : Z) | MDet (a : nat).

(** The state: the store, the objects by name, the numbers returned by determinant. *)
Definition hstate := (store * list object * list Z)%type.
Definition named {A} (l : list A) (a : nat) : outcome A := match nth_error l a with Some x => Ret x | None => Raise NameError end.
Definition hnew (env : list object) (ds : list Z) (r : outcome (store * object)) : outcome hstate :=
  do '(h, o) <- r; Ret (h, env ++ [o], ds).
Definition hstep (st : hstate) (op : mop) : outcome hstate :=
  let '(h, env, ds) := st in
  match op with
  | MNew L => hnew env ds (let '(h, rows) := alloc h L in do o <- new_object h rows; Ret (h, o))
  | MZero r c => hnew env ds (let '(h, rows) := alloc h (zero_matrix r c) in do o <- new_object h rows; Ret (h, o))
  | MAdd a b => do a <- named env a; do b <- named env b; hnew env ds (h_add h a b)
  | MSub a b => do a <- named env a; do b <- named env b; hnew env ds (h_sub h a b)
  | MNeg a => do a <- named env a; hnew env ds (h_neg h a)
  | MScale c a => do a <- named env a; hnew env ds (h_scale h c a)
  | MMul a b => do a <- named env a; do b <- named env b; hnew env ds (h_mul h a b)
  | MDelCol idx a => do a <- named env a; hnew env ds (h_delete_col h idx a)
  | MDelRow idx a => do a <- named env a; hnew env ds (h_delete_row h idx a)
  | MSet a i j v => do a <- named env a; do h <- hset h (rows_of a) i j v; Ret (h, env, ds)
  | MDet a => do a <- named env a; do '(d, h) <- h_determinant h a; Ret (h, env, ds ++ [d])
  end.
Definition hrun (p : list mop) : outcome hstate := foldM hstep p ([], [], []).
