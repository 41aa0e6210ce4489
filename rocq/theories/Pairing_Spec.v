(** * Specification of the keyed priority queue *)
From Coq Require Import ZArith List Bool.
From Verif Require Import Base Dict Pairing_Model.
Import ListNotations.
Open Scope Z_scope.

(** The contents of the queue: a dictionary from values to keys.  [kpq q o r q']
    holds when operation [o] on contents [q] may answer [r] and leave [q']. *)
Inductive kpq (q : list (Z * Z)) : pop -> pres -> list (Z * Z) -> Prop :=
| KInsert k v : dget q v = None -> kpq q (PInsert k v) PUnit (dset q v k)
| KDecrease v k k0 : dget q v = Some k0 -> k <= k0 -> kpq q (PDecrease v k) PUnit (dset q v k)
| KDecreaseMissing v k : dget q v = None -> kpq q (PDecrease v k) (PExn KeyError) q
| KDeleteMin k v : dget q v = Some k -> (forall v' k', dget q v' = Some k' -> k <= k') ->
    kpq q PDeleteMin (PMin (Some (k, v))) (ddel q v)
| KDeleteMinEmpty : q = [] -> kpq q PDeleteMin (PMin None) q
| KList : kpq q PList (PElems (map (fun '(v, k) => (k, v)) q)) q.

(** The requests a client may make of contents [q]: a value is inserted only
    while absent, and a key is only ever decreased. *)
Definition allowed (q : list (Z * Z)) (o : pop) : Prop :=
  match o with
  | PInsert k v => dget q v = None
  | PDecrease v k => match dget q v with Some k0 => k <= k0 | None => True end
  | _ => True
  end.

(** The contents after operation [o] answered [r]. *)
Definition after (q : list (Z * Z)) (o : pop) (r : pres) : list (Z * Z) :=
  match o, r with
  | PInsert k v, PUnit => dset q v k
  | PDecrease v k, PUnit => dset q v k
  | PDeleteMin, PMin (Some (_, v)) => ddel q v
  | _, _ => q
  end.

(** Every request of the history is allowed, given the answers the heap [h]
    actually gave to the earlier ones. *)
Fixpoint allowed_run (q : list (Z * Z)) (h : pheap) (ops : list pop) : Prop :=
  match ops with
  | [] => True
  | o :: ops' => allowed q o /\ allowed_run (after q o (fst (ph_step h o))) (snd (ph_step h o)) ops'
  end.

Inductive kpq_run : list (Z * Z) -> list pop -> list pres -> list (Z * Z) -> Prop :=
| KNil q : kpq_run q [] [] q
| KCons q o r q' ops rs q'' : kpq q o r q' -> kpq_run q' ops rs q'' ->
    kpq_run q (o :: ops) (r :: rs) q''.
