(** * Model of rosemary/data_structures/heaps.py, LeftistHeap (lines 1-211) *)
From Coq Require Import ZArith List Bool.
From Verif Require Import Base.
Import ListNotations.
Open Scope Z_scope.

(** heaps.py:9-31, [_LeftistHeapNode]: [LNone] is the Python [None].  The nodes
    of a heap form a tree of uniquely owned objects, so object identity is not
    modelled.  Values are integers. *)
Inductive lnode :=
| LNone
| LNode (value rank : Z) (left right : lnode).

(** heaps.py:27-31. *)
Definition new_node (v : Z) : lnode := LNode v 0 LNone LNone.

Fixpoint lsize (t : lnode) : nat :=
  match t with LNone => O | LNode _ _ l r => S (lsize l + lsize r) end.

(** heaps.py:57-69, the end of [_leftist_heap_merge]: attach nodeC to nodeA
    (value [v], left child [l]). *)
Definition attach (v : Z) (l c : lnode) : lnode :=
  match l with
  | LNone => LNode v 0 c LNone
  | LNode _ rl _ _ =>
      match c with
      | LNone => LNode v 0 l LNone
      | LNode _ rc _ _ =>
          if rc <=? rl then LNode v (rc + 1) l c
          else LNode v (rl + 1) c l
      end
  end.

(** heaps.py:34-71, [_leftist_heap_merge].  The recursion is on fuel; the
    wrapper [lmerge] supplies the number of nodes, which always suffices. *)
Fixpoint lmerge_fuel (fuel : nat) (a b : lnode) : lnode :=
  match fuel with
  | O => LNone
  | S f =>
      match a, b with
      | LNone, _ => b
      | _, LNone => a
      | LNode va _ la ra, LNode vb _ lb rb =>
          if va >? vb then
            attach vb lb (match rb with LNone => a | _ => lmerge_fuel f rb a end)
          else
            attach va la (match ra with LNone => b | _ => lmerge_fuel f ra b end)
      end
  end.

Definition lmerge (a b : lnode) : lnode := lmerge_fuel (S (lsize a + lsize b)) a b.

(** heaps.py:74-93: the two slots of a LeftistHeap. *)
Record lheap := { root : lnode; size : Z }.

(** heaps.py:115-121: pop two nodes from the left, append their merge. *)
Fixpoint lbuild (fuel : nat) (nodes : list lnode) (last : option lnode) : option lnode :=
  match fuel with
  | O => last
  | S f =>
      match nodes with
      | a :: b :: rest => let m := lmerge a b in lbuild f (rest ++ [m]) (Some m)
      | _ => last
      end
  end.

(** heaps.py:95-124, [LeftistHeap.__init__].  [nodeA] is bound by the loop
    only, so fewer than two values raise UnboundLocalError. *)
Definition lh_init (values : list Z) : outcome lheap :=
  match lbuild (length values) (map new_node values) None with
  | None => Raise UnboundLocalError
  | Some t => Ret {| root := t; size := Z.of_nat (length values - 1) + 1 |}
  end.

(** heaps.py:129-130, [__len__]. *)
Definition lh_len (h : lheap) : Z := size h.

(** heaps.py:139-157, [insert]. *)
Definition lh_insert (h : lheap) (v : Z) : lheap :=
  {| root := match root h with LNone => new_node v | t => lmerge t (new_node v) end;
     size := size h + 1 |}.

(** heaps.py:159-170, [find_min]: [None.value] raises AttributeError. *)
Definition lh_find_min (h : lheap) : outcome Z :=
  match root h with LNone => Raise AttributeError | LNode v _ _ _ => Ret v end.

(** heaps.py:172-191, [delete_min]; the returned [None] is the model's [None]. *)
Definition lh_delete_min (h : lheap) : option Z * lheap :=
  match root h with
  | LNone => (None, h)
  | LNode v _ l r => (Some v, {| root := lmerge l r; size := size h - 1 |})
  end.

(** heaps.py:193-211, [merge].  Afterwards the two Python heaps share nodes;
    the model describes uses that abandon [other], as the docstring asks. *)
Definition lh_merge (h other : lheap) : lheap :=
  {| root := lmerge (root h) (root other); size := size h + size other |}.

(** heaps.py:132-137, [__iter__]: the values yielded by draining the heap. *)
Fixpoint lh_iter_fuel (k : nat) (h : lheap) : list (option Z) * lheap :=
  match k with
  | O => ([], h)
  | S k' => let '(v, h') := lh_delete_min h in
            let '(vs, h'') := lh_iter_fuel k' h' in (v :: vs, h'')
  end.
Definition lh_iter (h : lheap) : list (option Z) * lheap :=
  lh_iter_fuel (Z.to_nat (size h)) h.

(** A client's history: the operations it performs after construction. *)
Inductive lop :=
| LInsert (v : Z)
| LFindMin
| LDeleteMin
| LLen
| LMerge (values : list Z).   (** merge with a fresh heap built from [values] *)

Inductive lres :=
| RUnit
| RVal (v : option Z)
| RExn (e : exn).

(** One operation: the observable result and the new heap. *)
Definition lh_step (h : lheap) (o : lop) : lres * lheap :=
  match o with
  | LInsert v => (RUnit, lh_insert h v)
  | LFindMin => match lh_find_min h with
                | Ret v => (RVal (Some v), h)
                | Raise e => (RExn e, h)
                | Diverge => (RUnit, h)
                end
  | LDeleteMin => let '(v, h') := lh_delete_min h in (RVal v, h')
  | LLen => (RVal (Some (lh_len h)), h)
  | LMerge vs => match lh_init vs with
                 | Ret o => (RUnit, lh_merge h o)
                 | Raise e => (RExn e, h)
                 | Diverge => (RUnit, h)
                 end
  end.

Fixpoint lh_run (h : lheap) (ops : list lop) : list lres * lheap :=
  match ops with
  | [] => ([], h)
  | o :: ops' => let '(r, h') := lh_step h o in
                 let '(rs, h'') := lh_run h' ops' in (r :: rs, h'')
  end.
