(** * Model of chartres (rosemary/number_theory/primes/sieves.py:296-377) *)
From Coq Require Import ZArith List Bool.
From Verif Require Import Base Paths_Model.
Import ListNotations.
Open Scope Z_scope.

(** Entries of the heap, compared as tuples. *)
Notation entry := (Z * Z * Z)%type.
Definition entry_ltb (x y : entry) : bool :=
  let '(a, b, c) := x in let '(a', b', c') := y in
  (a <? a') || ((a =? a') && ((b <? b') || ((b =? b') && (c <? c')))).

(** sieves.py:352-354, the loop [while q < candidate]; the heap is a list of entries (Paths_Model.pop_min). *)
Definition pop_step (candidate : Z) (s : Z * list entry) : (Z * list entry) + outcome (Z * list entry) :=
  let '(q, heap) := s in
  if q <? candidate then
    match heap with
    | [] => inr (Raise IndexError)
    | x :: l =>
        let '(m, rest) := pop_min entry_ltb x l in
        let '(q, qp, qpp) := m in
        inl (q, (q + qp, qpp - qp, qpp) :: rest)
    end
  else inr (Ret (q, heap)).
Definition pop_fuel (candidate : Z) (heap : list entry) : nat :=
  bits (zsum (map (fun e => Z.max 0 (candidate - fst (fst e))) heap) + 1).
Definition pop_loop (candidate q : Z) (heap : list entry) : outcome (Z * list entry) :=
  run (pop_step candidate) (pop_fuel candidate heap) (q, heap).

(** sieves.py:359-363, the loop [while candidate < q]; the state is (primes, candidate, diff). *)
Definition add_step (q : Z) (s : list Z * Z * Z) : (list Z * Z * Z) + outcome (list Z * Z * Z) :=
  let '(primes, candidate, diff) := s in
  if candidate <? q then inl (primes ++ [candidate], candidate + diff, 6 - diff) else inr (Ret s).
Definition add_loop (q : Z) (s : list Z * Z * Z) : outcome (list Z * Z * Z) :=
  run (add_step q) (bits (Z.max 0 (q - snd (fst s)))) s.

(** sieves.py:365-373: the next prime enters the heap. *)
Definition push_prime (primes : list Z) (candidate size t : Z) (heap : list entry) : outcome (Z * Z * list entry) :=
  if candidate =? t then
    do u <- pyget primes (size + 1 + 2);
    let t := u * u in
    if u mod 3 =? 2 then Ret (size + 1, t, (t, 2 * u, 6 * u) :: heap)
    else if u mod 3 =? 1 then Ret (size + 1, t, (t, 4 * u, 6 * u) :: heap)
    else Ret (size + 1, t, heap)
  else Ret (size, t, heap).

(** sieves.py:351-376, one round of [while heap]; [None] is the value returned after the loop.  The variable
    [num_primes], never read, is left out. *)
Definition round (n : Z) (s : list Z * Z * Z * Z * Z * Z * list entry)
  : (list Z * Z * Z * Z * Z * Z * list entry) + outcome (option (list Z)) :=
  let '(primes, candidate, diff, size, q, t, heap) := s in
  match heap with
  | [] => inr (Ret None)
  | _ =>
      match pop_loop candidate q heap with
      | Ret (q, heap) =>
          if n <? candidate then inr (Ret (Some (filter (fun e => negb (e =? 0) && (e <=? n)) primes)))
          else
            match add_loop q (primes, candidate, diff) with
            | Ret (primes, candidate, diff) =>
                match push_prime primes candidate size t heap with
                | Ret (size, t, heap) => inl (primes, candidate + diff, 6 - diff, size, q, t, heap)
                | Raise e => inr (Raise e)
                | Diverge => inr Diverge
                end
            | Raise e => inr (Raise e)
            | Diverge => inr Diverge
            end
      | Raise e => inr (Raise e)
      | Diverge => inr Diverge
      end
  end.

(** sieves.py:296-377, [chartres]. *)
Definition chartres (n : Z) : outcome (option (list Z)) :=
  run (round n) (bits (Z.max 0 (n + 1 - 5))) ([0; 2; 3], 5, 2, 1, 25, 25, [(25, 10, 30)]).
