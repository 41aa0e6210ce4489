(** * Model of the sudoku solver (rosemary/combinatorics/optimization/exact_cover.py)
    The digit characters of a string are the integers 0, ..., 9. *)
From Coq Require Import ZArith List Bool.
From Verif Require Import Base Py Dict AlgX_Model.
Import ListNotations.
Open Scope Z_scope.

(** [M[r][c] = d]. *)
Definition mset (M : list (list Z)) (r c d : Z) : outcome (list (list Z)) :=
  do row <- pyget M r; do row <- pyset row c d; pyset M r row.
(** [M[r][c]]. *)
Definition mgetM (M : list (list Z)) (r c : Z) : outcome Z := do row <- pyget M r; pyget row c.

(** exact_cover.py:12-16, [parse]. *)
Definition parse (digits : list Z) : outcome (list (list Z)) :=
  foldM (fun M '(i, d) => mset M (i / 9) (i mod 9) d) (combine (zrange 0 (Z.of_nat (length digits))) digits)
    (repeat (repeat 0 9) 9).

(** exact_cover.py:4-9, [to_string]. *)
Definition to_string (M : list (list Z)) : outcome (list Z) :=
  mapM (fun '(i, j) => mgetM M i j) (list_prod (zrange 0 9) (zrange 0 9)).

(** The strings "{}O{}", "{}R{}", "{}C{}" and "{}B{}" of two digits: kind 0, 1, 2, 3. *)
Definition code (kind a b : Z) : Z := kind * 100 + a * 10 + b.

(** exact_cover.py:254-264, the dictionary [block_idx]; the key (rr, cc) is 10 * rr + cc. *)
Definition block_idx : list (Z * Z) := [(0, 0); (3, 1); (6, 2); (30, 3); (33, 4); (36, 5); (60, 6); (63, 7); (66, 8)].

(** exact_cover.py:274-281: the set [entries], in the order in which its elements were added. *)
Definition entries (row col digit : Z) : outcome (list Z) :=
  let rr := row - row mod 3 in
  let cc := col - col mod 3 in
  do b <- dgetM block_idx (10 * rr + cc);
  Ret [code 0 row col; code 1 digit row; code 2 digit col; code 3 digit b].

Section Orders.
  (** The iteration orders of the sets [entries], of the set [target], and of the sets of rows in algorithmx. *)
  Context (eord tord : list Z -> list Z) (ord : list Z -> list Z -> list Z).

  (** exact_cover.py:252-285, [sudoku_vectors]. *)
  Definition sudoku_vectors (M : list (list Z)) : outcome (list (list Z)) :=
    foldM (fun vectors row =>
      foldM (fun vectors col =>
        do x <- mgetM M row col;
        let digits := if x =? 0 then zrange 1 10 else [x] in
        foldM (fun vectors digit => do e <- entries row col digit; Ret (vectors ++ [eord e])) digits vectors)
        (zrange 0 9) vectors) (zrange 0 9) [].

  (** exact_cover.py:297-306: the loop over the entries of one vector; the variables r, c, d. *)
  Definition read_entry (s : option Z * option Z * option Z) (e : Z) : option Z * option Z * option Z :=
    let '(r, c, d) := s in
    let '(r, c) := if e / 100 =? 0 then (Some (e / 10 mod 10), Some (e mod 10)) else (r, c) in
    let d := if e / 100 =? 2 then Some (e / 10 mod 10) else d in
    (r, c, d).

  (** exact_cover.py:288-308, [sudoku_dlx]. *)
  Definition sudoku_dlx (a : list Z) : outcome (list Z) :=
    do M <- parse a;
    do vecs <- sudoku_vectors M;
    let target := tord (fold_left (fun acc v => fold_left sadd v acc) vecs []) in
    do sols <- algorithmx vecs ord target;
    match sols with
    | [] => Raise StopIteration
    | sol :: _ =>
        do '(M, _) <- foldM (fun '(M, st) entry =>
            let '(r, c, d) := fold_left read_entry entry st in
            match r, c, d with
            | Some r', Some c', Some d' => do M <- mset M r' c' d'; Ret (M, (r, c, d))
            | _, _, _ => Raise UnboundLocalError
            end) sol (M, (None, None, None));
        to_string M
    end.
End Orders.
