(** * Model of the functions of rosemary/graphs/graphs.py that read graphs from files

    A file is the text it contains.  Simplifications: opening a file does not fail, its characters are 8 bits wide, and no
    character beyond ASCII is a digit or white space; Python's limit on the number of digits of a numeral is not modelled. *)
From Coq Require Import Ascii String ZArith List Bool.
From Verif Require Import Base Py Dict Graph_Model Repr_Spec.
Import ListNotations.
Open Scope Z_scope.

(** Does a text begin with a character? *)
Definition starts (c : ascii) (t : text) : bool := match t with [] => false | c' :: _ => Ascii.eqb c' c end.

(** graphs.py:1131, 1163 ([open(path, 'r')]): CR LF and CR are read as LF. *)
Fixpoint newlines (t : text) : text :=
  match t with
  | [] => []
  | c :: t' => if Ascii.eqb c "013"
               then if starts "010" t' then newlines t' else "010"%char :: newlines t'
               else c :: newlines t'
  end.

(** graphs.py:1133, 1165 ([for line in f]): the lines, each with its LF. *)
Fixpoint lines_from (cur : text) (t : text) : list text :=
  match t with
  | [] => match cur with [] => [] | _ => [cur] end
  | c :: t' => if Ascii.eqb c "010" then (cur ++ [c]) :: lines_from [] t' else lines_from (cur ++ [c]) t'
  end.
Definition lines (t : text) : list text := lines_from [] (newlines t).

(** graphs.py:1135, 1166 ([line.split(' ')]). *)
Fixpoint split_from (cur : text) (t : text) : list text :=
  match t with
  | [] => [cur]
  | c :: t' => if Ascii.eqb c " " then cur :: split_from [] t' else split_from (cur ++ [c]) t'
  end.
Definition split_spaces (t : text) : list text := split_from [] t.

(** graphs.py:1135, 1166 ([int(e)]): white space at both ends is skipped, then there are a sign and digits, which may have
    single underscores between them. *)
Definition is_blank (c : ascii) : bool := existsb (Ascii.eqb c) [" "; "009"; "010"; "011"; "012"; "013"]%char.
Fixpoint lstrip (t : text) : text :=
  match t with
  | [] => []
  | c :: t' => if is_blank c then lstrip t' else t
  end.
Definition strip (t : text) : text := rev (lstrip (rev (lstrip t))).
Definition digit_value (c : ascii) : option Z :=
  let n := Z.of_N (N_of_ascii c) in if (48 <=? n) && (n <=? 57) then Some (n - 48) else None.
Fixpoint read_digits (acc : Z) (t : text) : option Z :=
  match t with
  | [] => Some acc
  | c :: t' =>
      if Ascii.eqb c "_" then
        match t' with
        | [] => None
        | c' :: t'' => match digit_value c' with Some d => read_digits (10 * acc + d) t'' | None => None end
        end
      else match digit_value c with Some d => read_digits (10 * acc + d) t' | None => None end
  end.
Definition read_nat (t : text) : option Z :=
  match t with
  | [] => None
  | c :: t' => match digit_value c with Some d => read_digits d t' | None => None end
  end.
Definition read_signed (t : text) : option Z :=
  if starts "+" t then read_nat (tl t)
  else if starts "-" t then match read_nat (tl t) with Some n => Some (- n) | None => None end
  else read_nat t.
Definition int_of (t : text) : outcome Z :=
  match read_signed (strip t) with Some z => Ret z | None => Raise ValueError end.

(** graphs.py:1135, 1166: [(u, v) = [int(e) for e in ...]]; the conversions come before the unpacking, and both raise ValueError. *)
Definition read_pair (ws : list text) : outcome (Z * Z) :=
  do l <- mapM int_of ws;
  match l with
  | [u; v] => Ret (u, v)
  | _ => Raise ValueError
  end.

(** graphs.py:1141-1169, [load_graph]. *)
Definition load_graph (t : text) : outcome graph :=
  foldM (fun g line => do '(u, v) <- read_pair (split_spaces line); Ret (add_edge g u v 1)) (lines t) empty_graph.

(** graphs.py:1109-1138, [load_dimacs_graph]. *)
Definition load_dimacs_graph (t : text) : outcome graph :=
  foldM (fun g line =>
    if starts "e" line
    then do '(u, v) <- read_pair (tl (split_spaces line)); Ret (add_edge g u v 1)
    else Ret g) (lines t) empty_graph.
