(** * Text files: lines, and decimal numerals as they may be written *)
From Coq Require Import Ascii String ZArith List.
From Verif Require Import Base Repr_Spec.
Import ListNotations.
Open Scope Z_scope.

Notation LF := "010"%char.
Notation CR := "013"%char.

(** The lines of a file opened as a text: a line ends with LF, CR or CR LF, read as LF; the last one may have no end. *)
Definition plain (b : text) : Prop := ~ In LF b /\ ~ In CR b.
Inductive file_lines : text -> list text -> Prop :=
| lines_none : file_lines [] []
| lines_last b : plain b -> b <> [] -> file_lines b [b]
| lines_lf b t ls : plain b -> file_lines t ls -> file_lines (b ++ LF :: t) ((b ++ [LF]) :: ls)
| lines_crlf b t ls : plain b -> file_lines t ls -> file_lines (b ++ CR :: LF :: t) ((b ++ [LF]) :: ls)
| lines_cr b t ls : plain b -> (forall t', t <> LF :: t') -> file_lines t ls -> file_lines (b ++ CR :: t) ((b ++ [LF]) :: ls).

(** White space around a numeral. *)
Definition blank (c : ascii) : Prop := In c [" "; "009"; "010"; "011"; "012"; "013"]%char.

(** The value of a digit. *)
Definition digit_is (c : ascii) (d : Z) : Prop := nth_error (txt "0123456789") (Z.to_nat d) = Some c /\ 0 <= d.

(** Digits, with single underscores allowed between them. *)
Inductive digits : text -> Z -> Prop :=
| digits_one c d : digit_is c d -> digits [c] d
| digits_more s n c d : digits s n -> digit_is c d -> digits (s ++ [c]) (10 * n + d)
| digits_under s n c d : digits s n -> digit_is c d -> digits (s ++ ["_"%char; c]) (10 * n + d).
Inductive signed : text -> Z -> Prop :=
| signed_none s n : digits s n -> signed s n
| signed_plus s n : digits s n -> signed ("+"%char :: s) n
| signed_minus s n : digits s n -> signed ("-"%char :: s) (- n).
Definition numeral (t : text) (z : Z) : Prop := exists a s b, t = a ++ s ++ b /\ Forall blank a /\ Forall blank b /\ signed s z.

(** A line "u v", and a DIMACS line "e u v" (the first word begins with an e; each space separates two words). *)
Definition word (s : text) : Prop := ~ In " "%char s.
Definition pair_line (l : text) (uv : Z * Z) : Prop :=
  exists s t, l = s ++ " "%char :: t /\ word s /\ word t /\ numeral s (fst uv) /\ numeral t (snd uv).
Definition edge_line (l : text) (uv : Z * Z) : Prop :=
  exists h l', l = "e"%char :: h ++ " "%char :: l' /\ word h /\ pair_line l' uv.
Definition comment_line (l : text) : Prop := forall l', l <> "e"%char :: l'.

(** The edges of a DIMACS file, given its lines. *)
Inductive dimacs_edges : list text -> list (Z * Z) -> Prop :=
| dimacs_none : dimacs_edges [] []
| dimacs_comment l ls es : comment_line l -> dimacs_edges ls es -> dimacs_edges (l :: ls) es
| dimacs_edge l uv ls es : edge_line l uv -> dimacs_edges ls es -> dimacs_edges (l :: ls) (uv :: es).

(** The files one would write for a list of edges. *)
Definition pairs_file (es : list (Z * Z)) : text :=
  List.concat (map (fun uv => str (fst uv) ++ txt " " ++ str (snd uv) ++ [LF]) es).
Definition dimacs_file (es : list (Z * Z)) : text :=
  List.concat (map (fun uv => txt "e " ++ str (fst uv) ++ txt " " ++ str (snd uv) ++ [LF]) es).

(** What a list of pairs is as a graph: all weights are 1. *)
Definition graph_of (V : Z -> Prop) (W : Z -> Z -> option Z) (es : list (Z * Z)) : Prop :=
  (forall x, V x <-> exists y, In (x, y) es \/ In (y, x) es) /\
  (forall x y, W x y = Some 1 <-> In (x, y) es \/ In (y, x) es) /\
  (forall x y w, W x y = Some w -> w = 1).
