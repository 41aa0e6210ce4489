(** * Specification of priority queues: a sorted list of integers *)
From Coq Require Import ZArith List Bool.
From Verif Require Import Base Lists Leftist_Model.
Import ListNotations.
Open Scope Z_scope.

(** What each operation of a priority queue must answer, the queue being the
    sorted list of its contents ([zinsert] inserts into a sorted list). *)
Definition pq_step (q : list Z) (o : lop) : lres * list Z :=
  match o with
  | LInsert v => (RUnit, zinsert v q)
  | LFindMin => match q with [] => (RExn AttributeError, q) | x :: _ => (RVal (Some x), q) end
  | LDeleteMin => match q with [] => (RVal None, q) | x :: q' => (RVal (Some x), q') end
  | LLen => (RVal (Some (Z.of_nat (length q))), q)
  | LMerge vs => if (length vs <? 2)%nat then (RExn UnboundLocalError, q)
                 else (RUnit, fold_right zinsert q vs)
  end.

Fixpoint pq_run (q : list Z) (ops : list lop) : list lres * list Z :=
  match ops with
  | [] => ([], q)
  | o :: ops' => let '(r, q') := pq_step q o in
                 let '(rs, q'') := pq_run q' ops' in (r :: rs, q'')
  end.
