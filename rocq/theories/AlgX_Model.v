(** * Model of algorithmx and algorithm_dlx (rosemary/combinatorics/optimization/exact_cover.py) *)
From Coq Require Import ZArith List Bool.
From Verif Require Import Base Py Dict.
Import ListNotations.
Open Scope Z_scope.

(** Sets of row numbers: duplicate-free lists. *)
Definition zmem (x : Z) (s : list Z) : bool := existsb (Z.eqb x) s.
(** [s.add(x)]. *)
Definition sadd (s : list Z) (x : Z) : list Z := if zmem x s then s else s ++ [x].
(** [s.remove(x)]. *)
Definition sremove (s : list Z) (x : Z) : outcome (list Z) :=
  if zmem x s then Ret (filter (fun y => negb (y =? x)) s) else Raise KeyError.

(** The dictionary X: column to set of rows. *)
Definition columns := list (Z * list Z).

Section AlgX.
  (** [sets], each with its iteration order (line 24); [ord path s] is the order in which the set [s] of rows is
      iterated while [path] is the current partial solution. *)
  Context (sets : list (list Z)) (ord : list Z -> list Z -> list Z).

  (** exact_cover.py:26-29. *)
  Definition build (target : list Z) : outcome columns :=
    let X := fold_left (fun X j => dset X j []) target [] in
    foldM (fun X i => do y <- pyget sets i; foldM (fun X j => do s <- dgetM X j; Ret (dset X j (sadd s i))) y X)
      (zrange 0 (Z.of_nat (length sets))) X.

  (** exact_cover.py:42-44, the loop over [Y[i]]. *)
  Definition remove_row (j : Z) (X : columns) (i : Z) : outcome columns :=
    do y <- pyget sets i;
    foldM (fun X k => if k =? j then Ret X else do t <- dgetM X k; do t <- sremove t i; Ret (dset X k t)) y X.

  (** exact_cover.py:41-45: one column; [cols] is a stack, its top first. *)
  Definition cover_col (path : list Z) (s : list (list Z) * columns) (j : Z) : outcome (list (list Z) * columns) :=
    let '(cols, X) := s in
    do s <- dgetM X j;
    do X <- foldM (remove_row j) (ord path s) X;
    do s <- dgetM X j;
    Ret (s :: cols, ddel X j).

  (** exact_cover.py:53-55, the loop over [Y[i]]. *)
  Definition add_row (j : Z) (X : columns) (i : Z) : outcome columns :=
    do y <- pyget sets i;
    foldM (fun X k => if k =? j then Ret X else do t <- dgetM X k; Ret (dset X k (sadd t i))) y X.

  (** exact_cover.py:51-55: one column. *)
  Definition uncover_col (path : list Z) (s : list (list Z) * columns) (j : Z) : outcome (list (list Z) * columns) :=
    let '(cols, X) := s in
    match cols with
    | [] => Raise IndexError
    | s :: cols => do X <- foldM (add_row j) (ord path s) (dset X j s); Ret (cols, X)
    end.

  (** exact_cover.py:35: the first column with the fewest rows. *)
  Fixpoint min_col (best : Z * list Z) (X : columns) : Z :=
    match X with
    | [] => fst best
    | e :: X => min_col (if (length (snd e) <? length (snd best))%nat then e else best) X
    end.

  (** exact_cover.py:31-57: the solutions yielded, and X afterwards.  [fuel] bounds the depth of the recursion. *)
  Fixpoint solve (fuel : nat) (path : list Z) (X : columns) : outcome (list (list Z) * columns) :=
    match X with
    | [] => Ret ([path], X)
    | e :: X' =>
        match fuel with
        | O => Diverge
        | S fuel =>
            do s <- dgetM X (min_col e X');
            foldM (fun '(out, X) r =>
              do y <- pyget sets r;
              do '(cols, X) <- foldM (cover_col (path ++ [r])) y ([], X);
              do '(found, X) <- solve fuel (path ++ [r]) X;
              do '(cols, X) <- foldM (uncover_col (path ++ [r])) (rev y) (cols, X);
              Ret (out ++ found, X)) (ord path s) ([], X)
        end
    end.

  (** exact_cover.py:19-60: all yielded covers, and X after the last one.  algorithm_dlx (63-104) is the same code. *)
  Definition algorithmx_full (target : list Z) : outcome (list (list (list Z)) * (columns * columns)) :=
    do X <- build target;
    do '(found, X') <- solve (length X) [] X;
    do out <- mapM (mapM (pyget sets)) found;
    Ret (out, (X, X')).
  Definition algorithmx (target : list Z) : outcome (list (list (list Z))) :=
    do '(out, _) <- algorithmx_full target; Ret out.
End AlgX.
