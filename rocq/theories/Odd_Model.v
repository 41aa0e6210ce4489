(** * Model of odd_graph in rosemary/graphs/graphs.py

    The vertices are texts; the dictionaries are association lists in insertion order, as in Graph_Model. *)
From Coq Require Import Ascii String ZArith List Bool.
From Verif Require Import Base Repr_Spec.
Import ListNotations.
Open Scope Z_scope.

Notation tgraph := (list (text * list (text * Z))).

(** Equality and order of texts (lexicographic, by the codes of the characters). *)
Fixpoint teqb (u v : text) : bool :=
  match u, v with
  | [], [] => true
  | c :: u', d :: v' => Ascii.eqb c d && teqb u' v'
  | _, _ => false
  end.
Fixpoint tleb (u v : text) : bool :=
  match u, v with
  | [], _ => true
  | _ :: _, [] => false
  | c :: u', d :: v' => (N_of_ascii c <? N_of_ascii d)%N || (Ascii.eqb c d && tleb u' v')
  end.
Fixpoint tinsert (u : text) (l : list text) : list text :=
  match l with
  | [] => [u]
  | v :: l' => if tleb u v then u :: l else v :: tinsert u l'
  end.
Definition tsort (l : list text) : list text := fold_right tinsert [] l.

(** Dictionaries with texts as keys. *)
Fixpoint tget {A} (d : list (text * A)) (k : text) : option A :=
  match d with
  | [] => None
  | (k', a) :: d' => if teqb k' k then Some a else tget d' k
  end.
Fixpoint tset {A} (d : list (text * A)) (k : text) (a : A) : list (text * A) :=
  match d with
  | [] => [(k, a)]
  | (k', b) :: d' => if teqb k' k then (k', a) :: d' else (k', b) :: tset d' k a
  end.

(** graphs.py:479-498, [add_vertex]. *)
Definition tadd_vertex (g : tgraph) (u : text) : tgraph :=
  match tget g u with Some _ => g | None => tset g u [] end.

(** graphs.py:635-672, [add_edge]. *)
Definition tadd_arc (g : tgraph) (a b : text) (w : Z) : tgraph :=
  match tget g a with
  | None => tset g a [(b, w)]
  | Some d => tset g a (tset d b w)
  end.
Definition tadd_edge (g : tgraph) (u v : text) (w : Z) : tgraph := tadd_arc (tadd_arc g u v w) v u w.

(** graphs.py:83-148, [vertices()]. *)
Definition tvertices (g : tgraph) : list text := tsort (map fst g).

(** itertools.combinations(l, r), in its order. *)
Fixpoint selections {A} (r : nat) (l : list A) : list (list A) :=
  match r, l with
  | O, _ => [[]]
  | S _, [] => []
  | S r', x :: l' => map (cons x) (selections r' l') ++ selections r l'
  end.

(** graphs.py:1248: [len(set(u) & set(v)) == 0]. *)
Definition tdisjoint (u v : text) : bool := forallb (fun c => negb (existsb (Ascii.eqb c) v)) u.

(** graphs.py:1246-1249: the loop over the pairs of vertices. *)
Definition odd_edge (g : tgraph) (p : list text) : tgraph :=
  match p with
  | [u; v] => if tdisjoint u v then tadd_edge g u v 1 else g
  | _ => g
  end.

(** graphs.py:1204-1251, [odd_graph]; [combinations] raises ValueError if [k - 1] is negative. *)
Definition odd_graph (k : Z) : outcome tgraph :=
  let ints := List.concat (map str (zrange 0 (2 * k - 1))) in
  if k - 1 <? 0 then Raise ValueError
  else
    let g := fold_left tadd_vertex (selections (Z.to_nat (k - 1)) ints) [] in
    Ret (fold_left odd_edge (selections 2 (tvertices g)) g).
