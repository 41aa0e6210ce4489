(** * Model of rosemary/graphs/algorithms/spanning_trees.py: [gabow] *)
From Coq Require Import ZArith List Bool.
From Verif Require Import Base Py Lists Dict Gen UF_Model Graph_Model Trav_Model Paths_Model MST_Model.
Import ListNotations.
Open Scope Z_scope.

(** [weight[u, v]], spanning_trees.py:343: the dictionary of the weights of all arcs. *)
Definition arc_weight (g : graph) (u v : Z) : outcome Z :=
  match dget g u with Some a => dgetM a v | None => Raise KeyError end.

(** Membership in a set of pairs, [discard] and [add]. *)
Definition pair_eqb (a b : Z * Z) : bool := (fst a =? fst b) && (snd a =? snd b).
Definition pair_mem (x : Z * Z) (l : list (Z * Z)) : bool := existsb (pair_eqb x) l.
Definition pair_discard (x : Z * Z) (l : list (Z * Z)) : list (Z * Z) := filter (fun y => negb (pair_eqb x y)) l.

(** A stable sort by a key. *)
Fixpoint insert_key (key : Z * Z -> Z) (x : Z * Z) (l : list (Z * Z)) : list (Z * Z) :=
  match l with
  | [] => [x]
  | y :: l' => if key x <=? key y then x :: l else y :: insert_key key x l'
  end.
Definition sort_key (key : Z * Z -> Z) (l : list (Z * Z)) : list (Z * Z) := fold_right (insert_key key) [] l.

(** spanning_trees.py:349: [sorted(graph.edge_set(), key=...)]; [ord] is the iteration order of the set. The pairs of the
    edge set have a weight. *)
Definition arc_key (g : graph) (e : Z * Z) : Z := match arc_weight g (fst e) (snd e) with Ret w => w | _ => 0 end.
Definition sorted_edges (ord : list (Z * Z) -> list (Z * Z)) (g : graph) : list (Z * Z) := sort_key (arc_key g) (ord (edge_set g)).

(** [find(father[a])]: None is not an element of the union-find structure. *)
Definition find_father (father : prevs) (X : nuf) (a : Z) : outcome (Z * nuf) :=
  do fa <- dgetM father a;
  match fa with Some p => nuf_find X p | None => Raise KeyError end.

(** spanning_trees.py:302-307: one included edge. *)
Definition include_step (father : prevs) (X : nuf) (xy : Z * Z) : outcome nuf :=
  let '(x, y) := xy in
  do fx <- dgetM father x;
  let '(x, y) := if match fx with Some p => y =? p | None => false end then (x, y) else (y, x) in
  do '(y, X) <- nuf_find X y;
  nuf_union X x y y.

(** spanning_trees.py:319-322: the set of the ancestors. *)
Fixpoint climb (fuel : nat) (father : prevs) (X : nuf) (a : Z) (ancestors : list Z) : outcome (list Z * nuf) :=
  if mem a ancestors then Ret (ancestors, X)
  else match fuel with
       | O => Diverge
       | S f => do '(a', X) <- find_father father X a; climb f father X a' (a :: ancestors)
       end.

(** spanning_trees.py:325-326 *)
Fixpoint meet (fuel : nat) (father : prevs) (X : nuf) (a : Z) (ancestors : list Z) : outcome (Z * nuf) :=
  if mem a ancestors then Ret (a, X)
  else match fuel with
       | O => Diverge
       | S f => do '(a', X) <- find_father father X a; meet f father X a' ancestors
       end.

(** (min_weight, e, f) *)
Definition best := (option Z * option (Z * Z) * option (Z * Z))%type.

(** spanning_trees.py:330-339: the edges from v up to a. *)
Fixpoint contract (fuel : nat) (g : graph) (father : prevs) (xy : Z * Z) (a : Z) (X : nuf) (b : best) (v : Z) : outcome (nuf * best) :=
  if v =? a then Ret (X, b)
  else match fuel with
       | O => Diverge
       | S f =>
           do fv <- dgetM father v;
           match fv with
           | None => Raise KeyError
           | Some p =>
               do w1 <- arc_weight g (fst xy) (snd xy);
               do w2 <- arc_weight g v p;
               let ew := w1 - w2 in
               let b := if ltx ew (fst (fst b)) then (Some ew, Some (v, p), Some xy) else b in
               do '(w, X) <- nuf_find X p;
               do X <- nuf_union X v w w;
               contract f g father xy a X b w
           end
       end.

(** [father[x] != y] *)
Definition not_father (father : prevs) (x y : Z) : outcome bool :=
  do fx <- dgetM father x; Ret (negb match fx with Some p => p =? y | None => false end).

(** spanning_trees.py:312-339: one edge of the graph; the ancestors of a vertex are not more than there are vertices. *)
Definition exchange_step (g : graph) (father : prevs) (s : nuf * list (Z * Z) * best) (xy : Z * Z) : outcome (nuf * list (Z * Z) * best) :=
  let '(X, marked, b) := s in
  let '(x, y) := xy in
  if pair_mem (x, y) marked || pair_mem (y, x) marked then
    Ret (X, pair_discard (y, x) (pair_discard (x, y) marked), b)
  else
    do c1 <- not_father father x y;
    do c2 <- (if c1 then not_father father y x else Ret false);
    if c2 : bool then
      let n := Datatypes.S (length father) in
      do '(a, X) <- nuf_find X x;
      do '(ancestors, X) <- climb n father X a [];
      do '(a, X) <- nuf_find X y;
      do '(a, X) <- meet n father X a ancestors;
      do '(v, X) <- nuf_find X x;
      do '(X, b) <- contract n g father xy a X b v;
      do '(v, X) <- nuf_find X y;
      do '(X, b) <- contract n g father xy a X b v;
      Ret (X, marked, b)
    else Ret (X, marked, b).

(** spanning_trees.py:295-341, [find_exchange]; the set [marked] is shared by all calls. *)
Definition find_exchange (g : graph) (edges : list (Z * Z)) (father : prevs) (included excluded : list (Z * Z)) (marked : list (Z * Z)) :
  outcome (best * list (Z * Z)) :=
  do X <- foldM (include_step father) included (nuf_init (vertices g));
  let marked := fold_left (fun m e => e :: pair_discard e m) excluded marked in
  do '(_, marked, b) <- foldM (exchange_step g father) edges (X, marked, (None, None, None));
  Ret (b, marked).

(** The entries of the heap. *)
Record entry := Entry { e_weight : option Z; e_e : option (Z * Z); e_f : option (Z * Z); e_father : prevs; e_in : list (Z * Z); e_out : list (Z * Z) }.

(** Two entries that Python cannot compare: the weights and the edges are the same, the dictionaries are not. *)
Definition entry_tie (x y : entry) : Prop :=
  e_weight x = e_weight y /\ e_e x = e_e y /\ e_f x = e_f y /\ exists v, dget (e_father x) v <> dget (e_father y) v.

(** [tree_weight + exchange_weight], where the second may be inf. *)
Definition add_inf (w : Z) (x : option Z) : option Z := match x with Some y => Some (w + y) | None => None end.

(** spanning_trees.py:364 and 382: the edges of the tree, when every vertex has a father. *)
Definition father_edges (father : prevs) : list (Z * Z) :=
  sort_pairs (flat_map (fun '(x, p) => match p with Some y => if x =? y then [] else [ordered x y] | None => [] end) father).

(** A vertex without a father: min(x, None) raises TypeError, spanning_trees.py:364. *)
Definition fatherless (father : prevs) : bool := existsb (fun '(_, p) => match p with None => true | Some _ => false end) father.

(** spanning_trees.py:374-380: the tree with e replaced by f. The loop is reached only when the first tree has a father for
    every vertex, and then all later ones have. *)
Definition exchange_tree (father : prevs) (root : Z) (e f : Z * Z) : outcome prevs :=
  let new_graph := add_edges empty_graph (flat_map (fun '(x, p) => match p with Some y => [(x, y, 1)] | None => [] end) father) in
  let new_graph := delete_edge new_graph (fst e) (snd e) in
  let new_graph := add_edge new_graph (fst f) (snd f) 1 in
  do new_father <- breadth_first_search_tree new_graph root;
  Ret (dset new_father root (Some root)).

Section Gabow.
  Context (push : list entry -> entry -> outcome (list entry)) (pop : list entry -> outcome (entry * list entry)).
  Context (g : graph) (edges : list (Z * Z)) (root : Z).

  (** spanning_trees.py:382-394: the two new entries. *)
  Definition gabow_push (h : list entry) (marked : list (Z * Z)) (x : entry) (W : Z) (e f : Z * Z) (new_father : prevs) :
    outcome (list entry * list (Z * Z)) :=
    do wf <- arc_weight g (fst f) (snd f);
    do we <- arc_weight g (fst e) (snd e);
    let new_tree_weight := W - wf + we in
    do '(b, marked) <- find_exchange g edges (e_father x) (e_in x ++ [e]) (e_out x) marked;
    let '(ew, e1, f1) := b in
    do h <- push h (Entry (add_inf new_tree_weight ew) e1 f1 (e_father x) (e_in x ++ [e]) (e_out x));
    do '(b, marked) <- find_exchange g edges new_father (e_in x) (e_out x ++ [e]) marked;
    let '(ew, e2, f2) := b in
    do h <- push h (Entry (add_inf W ew) e2 f2 new_father (e_in x) (e_out x ++ [e]));
    Ret (h, marked).

  (** spanning_trees.py:364-395: the while loop; [fuel] is the number of trees asked for. [k] may be inf. *)
  Fixpoint gabow_loop (fuel : nat) (j : Z) (k : option Z) (h : list entry) (marked : list (Z * Z)) : list (Z * list (Z * Z)) * gstatus :=
    if match k with Some k => k <=? j | None => false end then ([], GEnded)
    else match fuel with
         | O => ([], GMore)
         | S fuel =>
             match pop h with
             | Raise ex => ([], GRaised ex)
             | Diverge => ([], GStuck)
             | Ret (x, h) =>
                 match e_weight x with
                 | None => ([], GEnded)
                 | Some W =>
                     match e_e x, e_f x with
                     | Some e, Some f =>
                         match exchange_tree (e_father x) root e f with
                         | Raise ex => ([], GRaised ex)
                         | Diverge => ([], GStuck)
                         | Ret new_father =>
                             let y := (W, father_edges new_father) in
                             match gabow_push h marked x W e f new_father with
                             | Raise ex => ([y], GRaised ex)
                             | Diverge => ([y], GStuck)
                             | Ret (h, marked) => let '(l, st) := gabow_loop fuel (j + 1) k h marked in (y :: l, st)
                             end
                         end
                     | _, _ => ([], GRaised TypeError)
                     end
                 end
             end
         end.
End Gabow.

(** spanning_trees.py:294-395, [gabow]: what is yielded when [fuel] trees are asked for after the first one. *)
Definition gabow push pop (ord : list (Z * Z) -> list (Z * Z)) (g : graph) (k : option Z) (fuel : nat) : list (Z * list (Z * Z)) * gstatus :=
  let edges := sorted_edges ord g in
  match vertices g with
  | [] => ([], GRaised IndexError)
  | root :: _ =>
      match prim_previous g (Some root) with
      | Raise ex => ([], GRaised ex)
      | Diverge => ([], GStuck)
      | Ret (W, father) =>
          let father := dset father root (Some root) in
          match find_exchange g edges father [] [] [] with
          | Raise ex => ([], GRaised ex)
          | Diverge => ([], GStuck)
          | Ret (b, marked) =>
              let '(ew, e, f) := b in
              if fatherless father then ([], GRaised TypeError) else
              let y := (W, father_edges father) in
              let '(l, st) := gabow_loop push pop g edges root fuel 1 k [Entry (add_inf W ew) e f father [] []] marked in
              (y :: l, st)
          end
      end
  end.
