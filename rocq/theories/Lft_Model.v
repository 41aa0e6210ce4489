(** * Model of rosemary/graphs/algorithms/spanning_trees.py: [cheriton_tarjan], with its LeftistHeap objects

    Cher_Model keeps the contents of a heap as a list; here the heaps are the trees of heaps.py, with values of any type:
    Leftist_Model has the same code for integers. *)
From Coq Require Import ZArith List Bool.
From Verif Require Import Base Py Dict UF_Model Graph_Model Paths_Model MST_Model Cher_Model.
Import ListNotations.
Open Scope Z_scope.

(** heaps.py:9-31, [_LeftistHeapNode]; [TNone] is the Python None. *)
Inductive tnode (A : Type) :=
| TNone
| TNode (value : A) (rank : Z) (left right : tnode A).
Arguments TNone {A}. Arguments TNode {A}.

Section Heap.
  Context {A : Type} (ltb : A -> A -> bool).

  (** The number of nodes, the attribute [size] of a heap. *)
  Fixpoint tsize (t : tnode A) : nat := match t with TNone => O | TNode _ _ l r => S (tsize l + tsize r) end.

  (** heaps.py:57-69: attach nodeC to nodeA (value [v], left child [l]). *)
  Definition tattach (v : A) (l c : tnode A) : tnode A :=
    match l with
    | TNone => TNode v 0 c TNone
    | TNode _ rl _ _ =>
        match c with
        | TNone => TNode v 0 l TNone
        | TNode _ rc _ _ => if rc <=? rl then TNode v (rc + 1) l c else TNode v (rl + 1) c l
        end
    end.

  (** heaps.py:34-71, [_leftist_heap_merge]; [nodeA.value > nodeB.value] is [ltb vb va]. The recursion is on fuel. *)
  Fixpoint tmerge_fuel (fuel : nat) (a b : tnode A) : tnode A :=
    match fuel with
    | O => TNone
    | S f =>
        match a, b with
        | TNone, _ => b
        | _, TNone => a
        | TNode va _ la ra, TNode vb _ lb rb =>
            if ltb vb va then tattach vb lb (match rb with TNone => a | _ => tmerge_fuel f rb a end)
            else tattach va la (match ra with TNone => b | _ => tmerge_fuel f ra b end)
        end
    end.
  Definition tmerge (a b : tnode A) : tnode A := tmerge_fuel (S (tsize a + tsize b)) a b.

  (** heaps.py:115-121 *)
  Fixpoint tbuild (fuel : nat) (nodes : list (tnode A)) (last : option (tnode A)) : option (tnode A) :=
    match fuel with
    | O => last
    | S f =>
        match nodes with
        | a :: b :: rest => let m := tmerge a b in tbuild f (rest ++ [m]) (Some m)
        | _ => last
        end
    end.

  (** heaps.py:95-124, [LeftistHeap.__init__]. *)
  Definition th_init (values : list A) : outcome (tnode A) :=
    match tbuild (length values) (map (fun v => TNode v 0 TNone TNone) values) None with
    | None => Raise UnboundLocalError
    | Some t => Ret t
    end.

  (** heaps.py:172-191, [delete_min]: the value, None for an empty heap. *)
  Definition th_delete_min (h : tnode A) : option A * tnode A :=
    match h with
    | TNone => (None, h)
    | TNode v _ l r => (Some v, tmerge l r)
    end.
End Heap.

Notation archeap := (tnode (Z * Z * Z)).

(** spanning_trees.py:244-249. *)
Definition lct_heaps (g : graph) : outcome (list (Z * archeap)) :=
  foldM (fun PQ u =>
    do row <- g_adj g u;
    do h <- th_init warc_ltb (map (fun '(v, w) => (w, u, v)) row);
    Ret (dset PQ u h)) (vertices g) [].

(** spanning_trees.py:255-267; the fuel is the number of nodes of the heap. *)
Fixpoint lct_pop (fuel : nat) (Tu : Z) (h : archeap) (X : uf) : outcome (Z * Z * Z * archeap * uf) :=
  match th_delete_min warc_ltb h with
  | (None, _) => Raise TypeError
  | (Some (_, x, y), h) =>
      match fuel with
      | O => Diverge
      | S f =>
          do '(Tx, X) <- uf_find X x;
          do '(Ty, X) <- uf_find X y;
          if Tx =? Ty then lct_pop f Tu h X
          else Ret (x, y, if Tx =? Tu then Ty else Tx, h, X)
      end
  end.

(** spanning_trees.py:251-280 *)
Fixpoint lct_loop (pick : list (Z * Z) -> list Z -> Z) (need : nat) (PQ : list (Z * archeap)) (X : uf) (tree : list (Z * Z)) :
  outcome (list (Z * Z)) :=
  match need with
  | O => Ret tree
  | S need =>
      match dkeys PQ with
      | [] => Raise IndexError
      | ks =>
          do '(Tu, X) <- uf_find X (pick tree ks);
          do h <- dgetM PQ Tu;
          do '(x, y, Tv, h, X) <- lct_pop (tsize h) Tu h X;
          let PQ := dset PQ Tu h in
          do X <- uf_union X Tu Tv;
          do '(u, X) <- uf_find X Tu;
          let '(Tu, Tv) := if negb (u =? Tu) then (u, Tu) else (Tu, Tv) in
          do hu <- dgetM PQ Tu;
          do hv <- dgetM PQ Tv;
          lct_loop pick need (ddel (dset PQ Tu (tmerge warc_ltb hu hv)) Tv) X (tree ++ [ordered x y])
      end
  end.

(** spanning_trees.py:196-286, [cheriton_tarjan]. *)
Definition lct_cheriton_tarjan (pick : list (Z * Z) -> list Z -> Z) (g : graph) : outcome (Z * list (Z * Z)) :=
  do PQ <- lct_heaps g;
  do tree <- lct_loop pick (length (vertices g) - 1) PQ (uf_init (vertices g)) [];
  do total <- ct_total g tree;
  Ret (total, sort_pairs tree).
