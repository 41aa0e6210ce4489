(** * Model of the methods [__repr__] *)
From Coq Require Import Ascii String ZArith List Bool.
From Verif Require Import Base Py Lists Poly_Model Mat_Model Repr_Spec.
Import ListNotations.
Open Scope Z_scope.

(** polynomials.py:75-86, [print_term]; v is self.variable. *)
Definition print_term (v : text) (deg coeff : Z) : text :=
  if deg =? 0 then str coeff
  else (if coeff =? 1 then [] else str coeff ++ txt "*") ++ v ++ (if 1 <? deg then txt "^" ++ str deg else []).

(** polynomials.py:66-102, [Polynomial.__repr__]. The list of terms (degree, coefficient) is sorted in decreasing order, and
    the degrees are distinct: it is reversed. *)
Definition poly_repr (v : text) (p : list Z) : text :=
  match p with
  | [c] => str c
  | _ =>
      let degree := len p - 1 in
      let terms := rev (filter (fun t => negb (snd t =? 0)) (map (fun i => (i, nth (Z.to_nat i) p 0)) (zrange 0 (degree + 1)))) in
      match terms with
      | [] => txt "0"
      | (_, c) :: _ =>
          (if c <? 0 then txt "-" else []) ++
          flat_map (fun '(deg, coeff) =>
            (if deg <? degree then if coeff <? 0 then txt " - " else txt " + " else []) ++ print_term v deg (Z.abs coeff)) terms
      end
  end.

(** polynomials.py:213-218, [Polynomial.__getitem__]; 237-252, [__ne__]. *)
Definition p_getitem (p : list Z) (i : Z) : outcome Z := pyget p i.
Definition p_ne (p : list Z) (o : operand) : bool := negb (p_eq p o).

(** len(s) and s.rjust(w) *)
Definition tlen (s : text) : Z := Z.of_nat (length s).
Definition rjust (w : Z) (s : text) : text := repeat " "%char (Z.to_nat (w - tlen s)) ++ s.

(** matrices.py:45-74, [Matrix.__repr__]. *)
Definition m_repr (M : matrix) : outcome text :=
  let nr := nrows M in
  let nc := ncols M in
  do max_len <- foldM (fun m i => foldM (fun m j =>
                  do x <- mget M i j; let item := str x in Ret (if m <? tlen item then tlen item else m)) (zrange 0 nc) m) (zrange 0 nr) 0;
  foldM (fun items i =>
    do items <- foldM (fun items j =>
                  do element <- mget M i j;
                  Ret (items ++ rjust max_len (str element) ++ (if j <? nc - 1 then txt " " else [])))
                (zrange 0 nc) (items ++ txt "[");
    Ret (items ++ txt "]" ++ (if i <? nr - 1 then ["010"%char] else []))) (zrange 0 nr) [].

(** continued_fractions.py:23-37, [QuadraticIrrational.__repr__]: note line 33. *)
Definition quadratic_repr (d p q : Z) : text :=
  txt "Continued Fraction Expansion of " ++
  (if p =? 0 then
     if q =? 1 then txt "sqrt(" ++ str d ++ txt ")"
     else txt "sqrt(" ++ str d ++ txt ")/" ++ str q
   else
     if q =? 1 then str q ++ txt " + sqrt(" ++ str d ++ txt ")"
     else txt "(" ++ str p ++ txt " + sqrt(" ++ str d ++ txt "))/" ++ str q).

(** pell.py:14-15, [PellEquation.__repr__]. *)
Definition pell_repr (D N : Z) : text := txt "Pell Equation x^2 - " ++ str D ++ txt "*y^2 = " ++ str N.

(** graphs.py:18-23, [Graph.__repr__], and heaps.py:126-127, [LeftistHeap.__repr__]. *)
Definition graph_repr (num_vertices : Z) : text := txt "Graph on " ++ str num_vertices ++ txt " vertices".
Definition leftist_repr (size : Z) : text := txt "Leftist heap of size " ++ str size ++ txt ".".
