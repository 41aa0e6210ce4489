(** * Texts: decimal numerals, and formulas in one variable *)
From Coq Require Import Ascii String DecimalString DecimalZ ZArith List.
From Verif Require Import Base.
Import ListNotations.
Open Scope Z_scope.

(** A text is a list of characters. *)
Definition text := list ascii.
Definition txt (s : string) : text := list_ascii_of_string s.

(** str(z): the decimal numeral of an integer. *)
Definition str (z : Z) : text := txt (NilZero.string_of_int (Z.to_int z)).

(** ' '.join(l) etc. *)
Fixpoint join (sep : text) (l : list text) : text :=
  match l with
  | [] => []
  | [x] => x
  | x :: l' => x ++ sep ++ join sep l'
  end.

(** Formulas in the variable v, and their values for v = x: a factor is a numeral, v or a power of v, a term is a product of
    factors, and a formula is a sum or difference of terms. *)
Inductive factor (v : text) (x : Z) : text -> Z -> Prop :=
| factor_num d : 0 <= d -> factor v x (str d) d
| factor_var : factor v x v x
| factor_pow k : 0 <= k -> factor v x (v ++ txt "^" ++ str k) (x ^ k).
Inductive term (v : text) (x : Z) : text -> Z -> Prop :=
| term_factor s a : factor v x s a -> term v x s a
| term_mul s t a b : term v x s a -> factor v x t b -> term v x (s ++ txt "*" ++ t) (a * b).
Inductive formula (v : text) (x : Z) : text -> Z -> Prop :=
| formula_term s a : term v x s a -> formula v x s a
| formula_neg s a : term v x s a -> formula v x (txt "-" ++ s) (- a)
| formula_add s t a b : formula v x s a -> term v x t b -> formula v x (s ++ txt " + " ++ t) (a + b)
| formula_sub s t a b : formula v x s a -> term v x t b -> formula v x (s ++ txt " - " ++ t) (a - b).

(** A name for a variable: not empty, and it does not begin with a digit or a minus sign. *)
Definition digit (c : ascii) : Prop := In c (txt "0123456789").
Definition variable_name (v : text) : Prop := exists c v', v = c :: v' /\ ~ digit c /\ c <> "-"%char.

(** A matrix as a table: its rows one below the other, in brackets, the entries at the right of fields of w characters. *)
Definition padded (w : nat) (z : Z) : text := repeat " "%char (w - length (str z)) ++ str z.
Definition table (w : nat) (M : list (list Z)) : text :=
  join ["010"%char] (map (fun row => txt "[" ++ join (txt " ") (map (padded w) row) ++ txt "]") M).
(** w is the greatest length of an entry (0 if there are none). *)
Definition table_width (w : nat) (M : list (list Z)) : Prop :=
  (forall row z, In row M -> In z row -> (length (str z) <= w)%nat) /\
  (w = O \/ exists row z, In row M /\ In z row /\ length (str z) = w).
