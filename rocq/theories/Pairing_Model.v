(** * Model of rosemary/data_structures/heaps.py, PairingHeap (lines 214-349) *)
From Coq Require Import ZArith List Bool.
From Verif Require Import Base Dict.
Import ListNotations.
Open Scope Z_scope.

(** heaps.py:214-222, [_PairingHeapNode].  Objects live in a store and are
    referred to by addresses; [None] is Python's [None].  Keys and values are
    integers. *)
Record pnode := PNode { pkey : Z; pval : Z; pnext : option Z; pleft : option Z; pprev : option Z }.

Definition store := Z -> option pnode.
Definition supd (st : store) (i : Z) (nd : pnode) : store :=
  fun j => if j =? i then Some nd else st j.

(** Attribute access through a reference; [None.attr] raises AttributeError. *)
Definition deref (st : store) (p : option Z) : outcome pnode :=
  match p with
  | None => Raise AttributeError
  | Some i => match st i with Some nd => Ret nd | None => Raise AttributeError end
  end.

(** Attribute assignment through a reference. *)
Definition modify (st : store) (p : option Z) (f : pnode -> pnode) : outcome store :=
  match p with
  | None => Raise AttributeError
  | Some i => match st i with Some nd => Ret (supd st i (f nd)) | None => Raise AttributeError end
  end.

Definition set_key k nd := PNode k (pval nd) (pnext nd) (pleft nd) (pprev nd).
Definition set_next x nd := PNode (pkey nd) (pval nd) x (pleft nd) (pprev nd).
Definition set_left x nd := PNode (pkey nd) (pval nd) (pnext nd) x (pprev nd).
Definition set_prev x nd := PNode (pkey nd) (pval nd) (pnext nd) (pleft nd) x.

(** [if x is not None: x.prev = q] (heaps.py:236-237, 247-248, 252-253, 317-318). *)
Definition fix_prev (st : store) (x q : option Z) : outcome store :=
  match x with None => Ret st | Some _ => modify st x (set_prev q) end.

(** heaps.py:225-257, [_link_nodes]. *)
Definition link_nodes (st : store) (a b : option Z) : outcome (store * option Z) :=
  match a, b with
  | None, _ => Ret (st, b)
  | _, None => Ret (st, a)
  | Some _, Some _ =>
      do na <- deref st a;
      do nb <- deref st b;
      if pkey nb <? pkey na then
        do st <- modify st b (set_prev (pprev na));
        do st <- modify st a (set_prev b);
        do nb <- deref st b;
        do st <- modify st a (set_next (pleft nb));
        do na <- deref st a;
        do st <- fix_prev st (pnext na) a;
        do st <- modify st b (set_left a);
        Ret (st, b)
      else
        do st <- modify st b (set_prev a);
        do nb <- deref st b;
        do st <- modify st a (set_next (pnext nb));
        do na <- deref st a;
        do st <- fix_prev st (pnext na) a;
        do na <- deref st a;
        do st <- modify st b (set_next (pleft na));
        do nb <- deref st b;
        do st <- fix_prev st (pnext nb) b;
        do st <- modify st a (set_left b);
        Ret (st, a)
  end.

(** heaps.py:264-271: cut the siblings apart, collecting them. *)
Fixpoint collect (fuel : nat) (st : store) (node : option Z) : outcome (store * list Z) :=
  match node with
  | None => Ret (st, [])
  | Some i =>
      match fuel with
      | O => Diverge
      | S f =>
          do nd <- deref st node;
          do st <- modify st (pprev nd) (set_next None);
          do nd <- deref st node;
          do '(st, l) <- collect f st (pnext nd);
          Ret (st, i :: l)
      end
  end.

(** heaps.py:273-277: link pairs from the end.  [r] is [treeArray] reversed;
    the result is the store, [paired] reversed, and what is left of [r]. *)
Fixpoint pair_up (st : store) (r : list Z) (paired : list (option Z)) :
    outcome (store * list (option Z) * list Z) :=
  match r with
  | first :: second :: rest =>
      do '(st, x) <- link_nodes st (Some first) (Some second);
      pair_up st rest (x :: paired)
  | _ => Ret (st, paired, r)
  end.

(** heaps.py:284-285: [for tree in reversed(paired): last = _link_nodes(last, tree)]. *)
Fixpoint link_all (st : store) (last : option Z) (trees : list (option Z)) :
    outcome (store * option Z) :=
  match trees with
  | [] => Ret (st, last)
  | t :: ts => do '(st, last) <- link_nodes st last t; link_all st last ts
  end.

(** heaps.py:260-287, [_combine_siblings]; [fuel] bounds the number of objects. *)
Definition combine_siblings (fuel : nat) (st : store) (x : option Z) : outcome (store * option Z) :=
  do nd <- deref st x;
  match pnext nd with
  | None => Ret (st, x)
  | Some _ =>
      do '(st, arr) <- collect fuel st x;
      do '(st, paired, lft) <- pair_up st (rev arr) [];
      match lft with
      | l :: _ => link_all st (Some l) paired
      | [] => match paired with
              | [] => Raise IndexError
              | l :: paired => link_all st l paired
              end
      end
  end.

(** heaps.py:290-295: the heap object, together with the object store and the
    next free address. *)
Record pheap := PHeap { pst : store; pfresh : Z; proot : option Z; plookup : list (Z * Z) }.

(** heaps.py:293-295, [PairingHeap()]. *)
Definition ph_empty : pheap := PHeap (fun _ => None) 0 None [].

(** heaps.py:297-306, [insert] and [insert_node]. *)
Definition ph_insert (h : pheap) (key value : Z) : outcome pheap :=
  let i := pfresh h in
  let st := supd (pst h) i (PNode key value None None None) in
  let lk := dset (plookup h) value i in
  match proot h with
  | None => Ret (PHeap st (i + 1) (Some i) lk)
  | Some _ => do '(st, r) <- link_nodes st (proot h) (Some i);
              Ret (PHeap st (i + 1) r lk)
  end.

(** heaps.py:308-310, [insert_values]. *)
Definition ph_insert_values (h : pheap) (kvs : list (Z * Z)) : outcome pheap :=
  foldM (fun h '(k, v) => ph_insert h k v) kvs h.

(** heaps.py:317-325: detach a node that is not the root. *)
Definition cut (st : store) (i : Z) : outcome store :=
  do nd <- deref st (Some i);
  do st <- fix_prev st (pnext nd) (pprev nd);
  do nd <- deref st (Some i);
  do pn <- deref st (pprev nd);
  do st <- (if match pleft pn with Some j => j =? i | None => false end
            then modify st (pprev nd) (set_left (pnext nd))
            else modify st (pprev nd) (set_next (pnext nd)));
  modify st (Some i) (set_next None).

(** heaps.py:312-327, [decrease_key]. *)
Definition ph_decrease_key (h : pheap) (value key : Z) : outcome pheap :=
  do i <- dgetM (plookup h) value;
  do st <- modify (pst h) (Some i) (set_key key);
  if match proot h with Some r => r =? i | None => false end
  then Ret (PHeap st (pfresh h) (proot h) (plookup h))
  else
    do st <- cut st i;
    do '(st, r) <- link_nodes st (proot h) (Some i);
    Ret (PHeap st (pfresh h) r (plookup h)).

(** heaps.py:329-341, [delete_min].  The returned node is observed through its
    key and value. *)
Definition ph_delete_min (h : pheap) : outcome (option (Z * Z) * pheap) :=
  match proot h with
  | None => Ret (None, h)
  | Some r =>
      do nd <- deref (pst h) (Some r);
      do '(st, r') <- match pleft nd with
                      | None => Ret (pst h, None)
                      | Some _ => combine_siblings (Z.to_nat (pfresh h)) (pst h) (pleft nd)
                      end;
      do nd <- deref st (Some r);
      do _ <- dgetM (plookup h) (pval nd);
      Ret (Some (pkey nd, pval nd), PHeap st (pfresh h) r' (ddel (plookup h) (pval nd)))
  end.

(** heaps.py:343-349, [list_elements]. *)
Fixpoint ph_list (st : store) (lk : list (Z * Z)) : outcome (list (Z * Z)) :=
  match lk with
  | [] => Ret []
  | (v, i) :: lk' =>
      do nd <- deref st (Some i);
      do r <- ph_list st lk';
      Ret ((pkey nd, v) :: r)
  end.
Definition ph_list_elements (h : pheap) : outcome (list (Z * Z)) := ph_list (pst h) (plookup h).

(** A client's history. *)
Inductive pop := PInsert (k v : Z) | PDecrease (v k : Z) | PDeleteMin | PList.
Inductive pres := PUnit | PMin (kv : option (Z * Z)) | PElems (l : list (Z * Z)) | PExn (e : exn).

(** One operation; an exception leaves the heap as it was (KeyError is raised
    by [decrease_key] before any assignment). *)
Definition ph_step (h : pheap) (o : pop) : pres * pheap :=
  match o with
  | PInsert k v => match ph_insert h k v with
                   | Ret h' => (PUnit, h') | Raise e => (PExn e, h) | Diverge => (PExn RuntimeError, h) end
  | PDecrease v k => match ph_decrease_key h v k with
                   | Ret h' => (PUnit, h') | Raise e => (PExn e, h) | Diverge => (PExn RuntimeError, h) end
  | PDeleteMin => match ph_delete_min h with
                   | Ret (r, h') => (PMin r, h') | Raise e => (PExn e, h) | Diverge => (PExn RuntimeError, h) end
  | PList => match ph_list_elements h with
                   | Ret l => (PElems l, h) | Raise e => (PExn e, h) | Diverge => (PExn RuntimeError, h) end
  end.

Fixpoint ph_run (h : pheap) (ops : list pop) : list pres * pheap :=
  match ops with
  | [] => ([], h)
  | o :: ops' => let '(r, h') := ph_step h o in
                 let '(rs, h'') := ph_run h' ops' in (r :: rs, h'')
  end.
