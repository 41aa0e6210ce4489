(** * Model of rosemary/combinatorics/enumeration/enumeration.py: tilings *)
From Coq Require Import ZArith List Bool.
From Verif Require Import Base.
Import ListNotations.
Open Scope Z_scope.

(** Python sets of cells are lists without repetitions.  The order in which
    [tuple(s)] lists a set is unspecified: it is given by an arbitrary function
    [ord] of the number of conversions made so far and of the set. *)
Section Cells.
  Context {C K : Type} (ceqb cltb : C -> C -> bool) (keqb : K -> K -> bool).

  (** [min(s)]. *)
  Definition cmin (l : list C) : outcome C :=
    match l with
    | [] => Raise ValueError
    | x :: l' => Ret (fold_left (fun m y => if cltb y m then y else m) l' x)
    end.

  Definition cmem (x : C) (l : list C) : bool := existsb (ceqb x) l.
  (** [u.difference(p)]. *)
  Definition difference (u p : list C) : list C := filter (fun x => negb (cmem x p)) u.

  (** The dictionary D of already computed results. *)
  Fixpoint lookup (D : list (K * Z)) (k : K) : option Z :=
    match D with [] => None | (k', v) :: D' => if keqb k k' then Some v else lookup D' k end.

  (** State of the search: D and the number of set-to-tuple conversions. *)
  Definition tstate := (list (K * Z) * nat)%type.

  (** enumeration.py:268-280, 285-297 and 343-349: try the pieces in order; the
      boolean with each piece is the outcome of the tests made before it is used.
      [inl ss]: all were tried, with total [ss]; [inr v]: the function returned [v]. *)
  Fixpoint try_pieces (rec : tstate -> list C -> list C -> outcome (Z * tstate))
    (pieces : list (bool * list C)) (uncovered : list C) (st : tstate) (ss : Z) : outcome ((Z + Z) * tstate) :=
    match pieces with
    | [] => Ret (inl ss, st)
    | (false, _) :: rest => try_pieces rec rest uncovered st ss
    | (true, piece) :: rest =>
        match difference uncovered piece with
        | [] => Ret (inr 1, st)
        | new_uncovered => do '(v, st) <- rec st piece new_uncovered; try_pieces rec rest uncovered st (ss + v)
        end
    end.
End Cells.

Fixpoint listeqb {A} (eqb : A -> A -> bool) (l l' : list A) : bool :=
  match l, l' with
  | [], [] => true
  | x :: r, y :: r' => eqb x y && listeqb eqb r r'
  | _, _ => false
  end.

Definition dkeqb (k k' : list Z * list Z) : bool := listeqb Z.eqb (fst k) (fst k') && listeqb Z.eqb (snd k) (snd k').

(** enumeration.py:252-300, [backtrack] of [number_of_domino_tilings]; the cell in
    row i and column j is i * n + j.  [fuel] bounds the recursion depth. *)
Fixpoint dom_backtrack (ord : nat -> list Z -> list Z) (largest n : Z) (fuel : nat)
  (st : tstate (K := list Z * list Z)) (covered uncovered : list Z) : outcome (Z * tstate) :=
  match fuel with
  | O => Diverge
  | S f =>
      let '(D, c) := st in
      let t_c := ord c covered in
      let t_u := ord (S c) uncovered in
      let st := (D, S (S c)) in
      match lookup dkeqb D (t_c, t_u) with
      | Some v => Ret (v, st)
      | None =>
          do smallest <- cmin Z.ltb uncovered;
          let free piece := negb (existsb (fun x => cmem Z.eqb x piece) covered) in
          let v := [smallest; smallest + n] in
          let h := [smallest; smallest + 1] in
          do '(r, st) <- try_pieces Z.eqb (fun st piece u => dom_backtrack ord largest n f st (covered ++ piece) u)
               [ ((smallest + n <=? largest) && free v, v);
                 ((smallest + 1 <=? largest) && negb ((smallest + 1) mod n =? 0) && free h, h) ]
               uncovered st 0;
          match r with
          | inr v => Ret (v, st)
          | inl ss => Ret (ss, (((t_c, t_u), ss) :: fst st, snd st))
          end
      end
  end.

(** enumeration.py:226-304, [number_of_domino_tilings]. *)
Definition number_of_domino_tilings (ord : nat -> list Z -> list Z) (m n : Z) : outcome Z :=
  do '(v, _) <- dom_backtrack ord (m * n - 1) n (S (Z.to_nat (m * n))) ([], O) [] (zrange 0 (m * n));
  Ret v.

Notation cell := (Z * Z)%type.
Definition cell_eqb (a b : cell) : bool := (fst a =? fst b) && (snd a =? snd b).
Definition cell_ltb (a b : cell) : bool := (fst a <? fst b) || ((fst a =? fst b) && (snd a <? snd b)).

(** enumeration.py:323-333, [next_pieces]. *)
Definition next_pieces (root : cell) : list (list cell) :=
  let '(i, j) := root in
  [ [(i, j); (i, j + 1); (i + 1, j)];
    [(i, j); (i, j + 1); (i + 1, j + 1)];
    [(i, j); (i + 1, j); (i + 1, j + 1)];
    [(i, j); (i + 1, j); (i + 1, j - 1)];
    [(i, j); (i, j + 1); (i, j + 2)];
    [(i, j); (i + 1, j); (i + 2, j)] ].

(** enumeration.py:335-352, [backtrack] of [triomino_tilings]. *)
Fixpoint tri_backtrack (ord : nat -> list cell -> list cell) (fuel : nat)
  (st : tstate (K := list cell)) (uncovered : list cell) : outcome (Z * tstate) :=
  match fuel with
  | O => Diverge
  | S f =>
      let '(D, c) := st in
      let t_u := ord c uncovered in
      let st := (D, S c) in
      match lookup (listeqb cell_eqb) D t_u with
      | Some v => Ret (v, st)
      | None =>
          do root <- cmin cell_ltb uncovered;
          do '(r, st) <- try_pieces cell_eqb (fun st _ u => tri_backtrack ord f st u)
               (map (fun piece => (forallb (fun x => cmem cell_eqb x uncovered) piece, piece)) (next_pieces root))
               uncovered st 0;
          match r with
          | inr v => Ret (v, st)
          | inl ss => Ret (ss, ((t_u, ss) :: fst st, snd st))
          end
      end
  end.

Definition grid (m n : Z) : list cell := flat_map (fun i => map (fun j => (i, j)) (zrange 0 n)) (zrange 0 m).

(** enumeration.py:307-357, [triomino_tilings]; the call with swapped arguments
    (line 321) is inlined. *)
Definition triomino_tilings (ord : nat -> list cell -> list cell) (nrows ncols : Z) : outcome Z :=
  let '(nrows, ncols) := if nrows <? ncols then (ncols, nrows) else (nrows, ncols) in
  let board := grid nrows ncols in
  do '(v, _) <- tri_backtrack ord (S (length board)) ([], O) board;
  Ret v.
