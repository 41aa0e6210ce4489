(** * Model of rosemary/number_theory/continued_fractions.py and rosemary/number_theory/diophantine_equations/pell.py *)
From Coq Require Import ZArith List Bool.
From Verif Require Import Base Py Core_Model Classify_Model.
Import ListNotations.
Open Scope Z_scope.

(** A QuadraticIrrational after construction (continued_fractions.py:83-85 and 110-112): its period length, the partial
    quotients before the period, and those of one period. *)
Record quadratic := { period_length : Z; pre_period : list Z; fundamental_period : list Z }.

(** continued_fractions.py:98-108; the state is (P, Q, terms). *)
Definition sqrt_step (d r : Z) (s : Z * Z * list Z) : (Z * Z * list Z) + outcome (list Z) :=
  let '(P, Q, terms) := s in
  match pydiv (P + r) Q with
  | Ret q =>
      let terms := terms ++ [q] in
      if q =? 2 * r then inr (Ret terms)
      else
        let P := q * Q - P in
        match pydiv (d - P * P) Q with
        | Ret Q => inl (P, Q, terms)
        | Raise e => inr (Raise e)
        | Diverge => inr Diverge
        end
  | Raise e => inr (Raise e)
  | Diverge => inr Diverge
  end.

(** continued_fractions.py:87-112; [fuel] bounds the turns of the loop by 2 ^ fuel. *)
Definition initialize_sqrt (fuel : nat) (d : Z) : outcome quadratic :=
  do r <- integer_sqrt d;
  if r * r =? d then Raise ValueError
  else
    do terms <- run (sqrt_step d r) fuel (0, 1, []);
    Ret {| period_length := Z.of_nat (length terms) - 1; pre_period := [r]; fundamental_period := tl terms |}.

(** continued_fractions.py:68-81; the dict [pq_pairs] as a list of pairs in insertion order, [i] the loop counter.
    The result is the list of partial quotients with the values of [j] and [k]. *)
Fixpoint pair_get (l : list (Z * Z * Z)) (P Q : Z) : option Z :=
  match l with
  | [] => None
  | (p, q, j) :: l => if (p =? P) && (q =? Q) then Some j else pair_get l P Q
  end.
Definition quad_step (D r : Z) (s : Z * Z * Z * list (Z * Z * Z) * list Z) : (Z * Z * Z * list (Z * Z * Z) * list Z) + outcome (list Z * Z * Z) :=
  let '(i, P, Q, pairs, quots) := s in
  match pydiv (P + r) Q with
  | Ret a =>
      let P := a * Q - P in
      match pydiv (D - P * P) Q with
      | Ret Q =>
          let quots := quots ++ [a] in
          match pair_get pairs P Q with
          | Some j => inr (Ret (quots, j, i))
          | None => inl (i + 1, P, Q, pairs ++ [(P, Q, i)], quots)
          end
      | Raise e => inr (Raise e)
      | Diverge => inr Diverge
      end
  | Raise e => inr (Raise e)
  | Diverge => inr Diverge
  end.

(** continued_fractions.py:39-85. *)
Definition initialize_quadratic (fuel : nat) (d p q : Z) : outcome quadratic :=
  do r <- integer_sqrt d;
  if r * r =? d then Raise ValueError
  else
    do m <- pymod (d - p * p) q;
    do '(P, Q, D, r) <-
      (if m =? 0 then Ret (p, q, d, r)
       else do r <- integer_sqrt (q * q * d); Ret (Z.abs q * p, Z.abs q * q, q * q * d, r));
    do '(quots, j, k) <- run (quad_step D r) fuel (1, P, Q, [(p, q, 0)], []);
    Ret {| period_length := k - j; pre_period := firstn (Z.to_nat j) quots; fundamental_period := skipn (Z.to_nat j) quots |}.

(** continued_fractions.py:11-21, the constructor [QuadraticIrrational(d, p=0, q=1)]. *)
Definition QuadraticIrrational (fuel : nat) (d p q : Z) : outcome quadratic :=
  if (p =? 0) && (q =? 1) then initialize_sqrt fuel d else initialize_quadratic fuel d p q.

(** [itertools.cycle(period)] with [cur] still to come in the current round: the next value and what is left. *)
Definition cycle_next (period cur : list Z) : option (Z * list Z) :=
  match cur with
  | q :: cur => Some (q, cur)
  | [] => match period with [] => None | q :: cur => Some (q, cur) end
  end.

(** continued_fractions.py:114-130: the first [m] values of the generator. *)
Fixpoint cycle_take (period cur : list Z) (m : nat) : list Z :=
  match m with
  | O => []
  | S m => match cycle_next period cur with None => [] | Some (q, cur) => q :: cycle_take period cur m end
  end.
Definition partial_quotients (c : quadratic) (m : nat) : list Z := cycle_take (fundamental_period c) (pre_period c) m.

(** continued_fractions.py:149-157: one turn of the loop; the state is what is left of the current round and (a0, a1, b0, b1). *)
Definition conv_next (period : list Z) (s : list Z * (Z * Z * Z * Z)) : option (Z * Z * (list Z * (Z * Z * Z * Z))) :=
  let '(cur, (a0, a1, b0, b1)) := s in
  match cycle_next period cur with
  | None => None
  | Some (q, cur) =>
      let a2 := q * a1 + a0 in
      let b2 := q * b1 + b0 in
      Some (a2, b2, (cur, (a1, a2, b1, b2)))
  end.
Definition conv_start (c : quadratic) : list Z * (Z * Z * Z * Z) := (pre_period c, (0, 1, 1, 0)).
(** The first [m] values of [convergents()] (continued_fractions.py:132-157). *)
Fixpoint conv_take (period : list Z) (m : nat) (s : list Z * (Z * Z * Z * Z)) : list (Z * Z) :=
  match m with
  | O => []
  | S m => match conv_next period s with None => [] | Some (x, y, s) => (x, y) :: conv_take period m s end
  end.
Definition convergents (c : quadratic) (m : nat) : list (Z * Z) := conv_take (fundamental_period c) m (conv_start c).

(** The truth value of what is_square returns: False and 0 are false. *)
Definition truthy (o : option Z) : bool := match o with Some r => negb (r =? 0) | None => false end.

(** pell.py:162-164, the loop over the convergents; [None] if the generator were exhausted. *)
Definition pell_step (D n : Z) (period : list Z) (s : list Z * (Z * Z * Z * Z)) : (list Z * (Z * Z * Z * Z)) + outcome (option (Z * Z)) :=
  match conv_next period s with
  | None => inr (Ret None)
  | Some (x, y, s) => if x * x - D * y * y =? n then inr (Ret (Some (x, y))) else inl s
  end.

(** pell.py:92-164. *)
Definition pell_fundamental_solution (fuel : nat) (D n : Z) : outcome (option (Z * Z)) :=
  do bad <- (if D <=? 0 then Ret true
             else do sq <- is_square D; Ret (truthy sq || negb ((n =? 1) || (n =? -1))));
  if bad then Raise ValueError
  else
    do c <- QuadraticIrrational fuel D 0 1;
    if (n =? -1) && (period_length c mod 2 =? 0) then Raise ValueError
    else run (pell_step D n (fundamental_period c)) fuel (conv_start c).

(** pell.py:7-12, the constructor [PellEquation(D, N)]. *)
Definition PellEquation (D N : Z) : outcome (Z * Z) :=
  do bad <- (if D <=? 0 then Ret true else do sq <- is_square D; Ret (truthy sq));
  if bad then Raise ValueError else Ret (D, N).
(** pell.py:77: the names [D] and [n] are not defined in the method. *)
Definition resolvent_solution (eqn : Z * Z) : outcome (option (Z * Z)) := Raise NameError.

(** pell.py:168-171 and 181-184. *)
Definition small_start (fuel : nat) (D N : Z) : outcome quadratic :=
  do bad <- (if D <=? 0 then Ret true else do sq <- is_square D; Ret (truthy sq || (D * D <=? N)));
  if bad then Raise ValueError else QuadraticIrrational fuel D 0 1.

(** pell.py:167-177: what the generator yields while it looks at the first [m] convergents (the output of line 175 is ignored). *)
Definition pell_small (fuel : nat) (D N : Z) (m : nat) : outcome (list (Z * Z)) :=
  do c <- small_start fuel D N;
  Ret (filter (fun xy => fst xy * fst xy - D * snd xy * snd xy =? N) (convergents c m)).

(** pell.py:188-191; the state is that of the generator with [terms]. *)
Definition terms_step (D : Z) (period : list Z) (s : (list Z * (Z * Z * Z * Z)) * list (Z * Z)) : ((list Z * (Z * Z * Z * Z)) * list (Z * Z)) + outcome (list (Z * Z)) :=
  let '(g, terms) := s in
  match conv_next period g with
  | None => inr (Ret terms)
  | Some (x, y, g) => if x * x - D * y * y =? 1 then inr (Ret terms) else inl (g, terms ++ [(x, y)])
  end.

(** [sort()] of a list of pairs. *)
Definition pair_le (a b : Z * Z) : bool := (fst a <? fst b) || ((fst a =? fst b) && (snd a <=? snd b)).
Fixpoint pair_insert (x : Z * Z) (l : list (Z * Z)) : list (Z * Z) :=
  match l with
  | [] => [x]
  | y :: l' => if pair_le x y then x :: y :: l' else y :: pair_insert x l'
  end.
Definition pair_sort (l : list (Z * Z)) : list (Z * Z) := fold_right pair_insert [] l.

(** pell.py:180-205. *)
Definition pell_small_minimal_positive_solutions (fuel : nat) (D N : Z) : outcome (list (Z * Z)) :=
  do c <- small_start fuel D N;
  do terms <- run (terms_step D (fundamental_period c)) fuel (conv_start c, []);
  do sols <- foldM (fun sols '(x, y) =>
    let k := x * x - D * y * y in
    do m <- pymod N k;
    if negb (m =? 0) then Ret sols
    else
      do q <- pydiv N k;
      do f <- is_square q;
      Ret (match f with Some f => sols ++ [(f * x, f * y)] | None => sols end)) terms [];
  Ret (pair_sort sols).

Section minimal.
  (** [sqrts a n] is sqrts_mod_n(a, n); [bound u N] is the value of the floating-point expression
      [int(((u + 1)*N/2.0)**0.5) + 1] (pell.py:253) or [int(((u - 1)*(-N)/2.0)**0.5) + 1] (pell.py:256). *)
  Context (sqrts : Z -> Z -> outcome (list Z)) (bound : Z -> Z -> Z) (fuel : nat).

  (** [range(r, B, D)] for D > 0. *)
  Definition range_step (r B D : Z) : list Z := map (fun i => r + i * D) (zrange 0 ((B - r + D - 1) / D)).

  (** pell.py:273-280: the solutions contributed by one x. *)
  Definition fundamental_at (D N x : Z) : outcome (list (Z * Z)) :=
    do t <- pydiv (x * x - N) D;
    do o <- is_square t;
    match o with
    | Some y =>
        if 0 <? y then
          do m1 <- pymod (- x * x - D * y * y) N;
          do one <- (if m1 =? 0 then do m2 <- pymod (2 * x * y) N; Ret (m2 =? 0) else Ret false);
          Ret (if one then [(x, y)] else [(x, y); (- x, y)])
        else Ret []
    | None => Ret []
    end.

  (** pell.py:285-293. *)
  Definition minimal_of (D N u v : Z) (xy : Z * Z) : Z * Z :=
    let '(x, y) := xy in
    if x <? 0 then
      let '(p, q) := if 0 <? N then (- x, - y) else (x, y) in
      (p * u + q * v * D, p * v + q * u)
    else (x, y).

  (** pell.py:208-297; the type error of unpacking None at line 245 cannot occur (see the theorems) and is a TypeError here. *)
  Definition pell_minimal_positive_solutions (D N : Z) : outcome (list (Z * Z)) :=
    do o <- pell_fundamental_solution fuel D 1;
    match o with
    | None => Raise TypeError
    | Some (u, v) =>
        if N =? 1 then Ret [(u, v)]
        else
          let B := bound u N in
          do residues <- sqrts N D;
          do found <- mapM (fundamental_at D N) (flat_map (fun r => range_step r B D) residues);
          Ret (pair_sort (map (minimal_of D N u v) (concat found)))
    end.

  (** pell.py:306-308: the pairs produced from one minimal solution; the state is (p, q, what has been yielded). *)
  Definition family_step (D B u v : Z) (s : Z * Z * list (Z * Z)) : (Z * Z * list (Z * Z)) + outcome (list (Z * Z)) :=
    let '(p, q, out) := s in
    if (p <=? B) && (q <=? B) then inl (p * u + q * v * D, p * v + q * u, out ++ [(p, q)])
    else inr (Ret out).

  (** pell.py:300-308: all that the generator yields. *)
  Definition pell_solution_generator (D N B : Z) : outcome (list (Z * Z)) :=
    do o <- pell_fundamental_solution fuel D 1;
    match o with
    | None => Raise TypeError
    | Some (u, v) =>
        do minimal <- pell_minimal_positive_solutions D N;
        do families <- mapM (fun '(x, y) => run (family_step D B u v) fuel (x, y, [])) minimal;
        Ret (concat families)
    end.
End minimal.

(** pell.py:311-328; the state is (n1, d1, n2, d2). *)
Definition farey_step (D N : Z) (s : Z * Z * Z * Z) : (Z * Z * Z * Z) + outcome (Z * Z) :=
  let '(n1, d1, n2, d2) := s in
  let a := n1 + n2 in
  let b := d1 + d2 in
  let t := a * a - D * b * b in
  if N =? t then inr (Ret (a, b))
  else if 0 <? t then inl (n1, d1, a, b) else inl (a, b, n2, d2).
Definition farey (fuel : nat) (D N : Z) : outcome (Z * Z) := run (farey_step D N) fuel (0, 1, 1, 0).
