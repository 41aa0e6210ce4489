(** * Model of rosemary/combinatorics/optimization/exact_cover.py: bit vectors *)
From Coq Require Import ZArith List Bool.
From Verif Require Import Base Gen.
Import ListNotations.
Open Scope Z_scope.

(** exact_cover.py:139-142: [num_bits]. *)
Definition ec_num_bits (ints : list Z) : Z :=
  fold_left (fun nb n => Z.max nb (bit_length n)) ints 0.

(** exact_cover.py:137-143: [vectors[b]], the integers with lowest set bit [b] in the
    order given; reading a missing key of the defaultdict gives []. *)
Definition ec_vectors (ints : list Z) (b : Z) : list Z :=
  filter (fun n => Z.land n (- n) =? b) ints.

Fixpoint ec_lookup (cache : list (Z * Z)) (k : Z) : option Z :=
  match cache with [] => None | (k', v) :: c => if k =? k' then Some v else ec_lookup c k end.

(** exact_cover.py:162-167: the loop over the vectors, given the recursive call. *)
Fixpoint ec_sum (rec : list (Z * Z) -> Z -> outcome (Z * list (Z * Z))) (vs : list Z) (covered : Z)
  (cache : list (Z * Z)) (total : Z) : outcome (Z * list (Z * Z)) :=
  match vs with
  | [] => Ret (total, cache)
  | v :: vs' =>
      if Z.land covered v =? 0 then
        do '(t, cache) <- rec cache (Z.lor covered v); ec_sum rec vs' covered cache (total + t)
      else ec_sum rec vs' covered cache total
  end.

(** exact_cover.py:157-168, [backtrack]; [fuel] bounds the recursion depth. *)
Fixpoint ec_backtrack (ints : list Z) (fuel : nat) (cache : list (Z * Z)) (covered : Z) : outcome (Z * list (Z * Z)) :=
  match fuel with
  | O => Diverge
  | S f =>
      match ec_lookup cache covered with
      | Some t => Ret (t, cache)
      | None =>
          let least_unset_bit := Z.land (Z.lnot covered) (covered + 1) in
          do '(total, cache) <- ec_sum (ec_backtrack ints f) (ec_vectors ints least_unset_bit) covered cache 0;
          Ret (total, (covered, total) :: cache)
      end
  end.

(** exact_cover.py:148-171, [number_of_solutions]. *)
Definition ec_number_of_solutions (ints : list Z) : outcome Z :=
  let nb := ec_num_bits ints in
  let all_bits := 2 ^ nb - 1 in
  do '(total, _) <- ec_backtrack ints (S (Z.to_nat nb)) [(all_bits, 1)] 0;
  Ret total.

(** exact_cover.py:183-186: push the extensions of (covered, used); the top of the
    stack is the head of the list. *)
Definition ec_push (ints : list Z) (covered : Z) (used : list Z) (stack : list (Z * list Z)) : list (Z * list Z) :=
  fold_left (fun st v => if Z.land covered v =? 0 then (Z.lor covered v, used ++ [v]) :: st else st)
    (ec_vectors ints (Z.land (Z.lnot covered) (covered + 1))) stack.

(** exact_cover.py:178-186: the loop of [solutions]; [fuel] bounds the number of
    iterations. *)
Fixpoint ec_loop (ints : list Z) (all_bits : Z) (fuel : nat) (stack : list (Z * list Z)) : list (list Z) * gstatus :=
  match fuel with
  | O => ([], GMore)
  | S f =>
      match stack with
      | [] => ([], GEnded)
      | (covered, used) :: stack' =>
          if covered =? all_bits then
            let '(l, st) := ec_loop ints all_bits f stack' in (used :: l, st)
          else ec_loop ints all_bits f (ec_push ints covered used stack')
      end
  end.

(** exact_cover.py:173-186, [solutions]. *)
Definition ec_solutions (ints : list Z) (fuel : nat) : list (list Z) * gstatus :=
  ec_loop ints (2 ^ ec_num_bits ints - 1) fuel [(0, [])].

(** exact_cover.py:211-220, [domino_ints]. *)
Definition domino_ints (n : Z) : list Z :=
  flat_map (fun i =>
    (if i + n <? n * n then [Z.lor (Z.shiftl 1 i) (Z.shiftl 1 (i + n))] else []) ++
    (if (i + 1 <? n * n) && negb ((i + 1) mod n =? 0) then [Z.lor (Z.shiftl 1 i) (Z.shiftl 1 (i + 1))] else []))
    (zrange 0 (n * n)).

(** exact_cover.py:223-227, [domino_tilings]. *)
Definition domino_tilings (n : Z) : outcome Z := ec_number_of_solutions (domino_ints n).

(** exact_cover.py:192-200: the inner loop for p, for the values r, r - 1, ..., 0 of r
    (l is r + p + 1 throughout). *)
Definition langford_ints (n : Z) : list Z :=
  flat_map (fun p =>
    map (fun r => Z.lor (Z.lor (Z.shiftl 1 (3 * n - p)) (Z.shiftl 1 (r + p + 1))) (Z.shiftl 1 r))
      (rev (zrange 0 (2 * n - 1 - p)))) (zrange 1 (n + 1)).

(** exact_cover.py:204-208, [langford_pairings]. *)
Definition langford_pairings (n : Z) : outcome Z :=
  do s <- ec_number_of_solutions (langford_ints n); Ret (s / 2).
