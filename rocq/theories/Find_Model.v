(** * Model of rosemary/number_theory/factorization/algorithms.py (all but trial_division and pollard_rho_brent) *)
From Coq Require Import ZArith List Bool.
From Verif Require Import Base Py Core_Model Sieves_Model Primality_Model TrialDiv_Model Factor_Model.
Import ListNotations.
Open Scope Z_scope.

(** A for loop with an early return: the first value that the body returns. *)
Fixpoint first_some {A B} (f : A -> outcome (option B)) (l : list A) : outcome (option B) :=
  match l with
  | [] => Ret None
  | x :: l => do r <- f x; match r with Some y => Ret (Some y) | None => first_some f l end
  end.

(** algorithms.py:98-146. *)
Definition fermat (n : Z) : outcome Z :=
  if n mod 2 =? 0 then Ret 2
  else
    do g <- integer_sqrt n;
    do r <- first_some (fun a =>
      let t := a * a - n in
      do b <- integer_sqrt t;
      Ret (if b * b =? t then Some (a - b) else None)) (zrange (g + 1) ((n + 9) / 6 + 1));
    Ret (match r with Some d => d | None => n end).

(** algorithms.py:206-207: at most [m - 1] steps are taken; [fuel] counts them. *)
Fixpoint align (fuel : nat) (m rm a : Z) : Z :=
  match fuel with
  | O => a
  | S fuel => if a mod m =? rm then a else align fuel m rm (a + 1)
  end.

(** algorithms.py:209-214; state [a]. *)
Definition lehman_step (n m fkn ub a : Z) : Z + outcome (option Z) :=
  if (fkn <=? a * a) && (a * a <=? ub) then
    let c := a * a - fkn in
    match integer_sqrt c with
    | Ret b => if b * b =? c then inr (do g <- gcd (a + b) n; Ret (Some g)) else inl (a + m)
    | Raise e => inr (Raise e)
    | Diverge => inr Diverge
    end
  else inr (Ret None).

(** algorithms.py:194-214, one [k]. *)
Definition lehman_k (n bound k : Z) : outcome (option Z) :=
  let '(r, m) := if k mod 2 =? 0 then (1, 2) else (k + n, 4) in
  let fkn := 4 * k * n in
  do a <- integer_sqrt fkn;
  let rm := r mod m in
  let a := align (Z.to_nat m) m rm a in
  let ub := fkn + bound ^ 2 in
  run (lehman_step n m fkn ub) (bits (ub + 1)) a.

(** algorithms.py:149-215. *)
Definition lehman (n : Z) : outcome Z :=
  do bound <- integer_nth_root 3 n;
  do d <- trial_division n (Some bound);
  if d <? n then Ret d
  else
    do r <- first_some (lehman_k n bound) (zrange 1 (bound + 1));
    Ret (match r with Some g => g | None => n end).

(** algorithms.py:267-270, state [(pk, pow_list)]. *)
Definition powers_step (limit p : Z) (s : Z * list (Z * Z)) : (Z * list (Z * Z)) + outcome (list (Z * Z)) :=
  let '(pk, pow_list) := s in
  if pk <=? limit then inl (pk * p, pow_list ++ [(pk, p)]) else inr (Ret pow_list).

(** algorithms.py:275-282. *)
Fixpoint p_minus_1_loop (n count : Z) (l : list (Z * Z)) (c : Z) : outcome Z :=
  match l with
  | [] => gcd (c - 1) n
  | (pk, p) :: l =>
      do c <- pow3 c p n;
      if count mod 100 =? 0 then
        do g <- gcd (c - 1) n;
        if (1 <? g) && (g <? n) then Ret g else p_minus_1_loop n (count + 1) l c
      else p_minus_1_loop n (count + 1) l c
  end.

(** algorithms.py:218-282.  [pow_list.sort()] orders the pairs by their first entries, which are distinct. *)
Definition pollard_p_minus_1 (n limit : Z) : outcome Z :=
  do p_list <- primes limit;
  do pow_list <- foldM (fun pow_list p => run (powers_step limit p) (bits limit) (p, pow_list)) p_list [];
  p_minus_1_loop n 0 (ksort pow_list) 13.

(** algorithms.py:345-354, one round; state [(k, u, v, prod)]. *)
Definition rho_step (n a : Z) (s : Z * Z * Z * Z) : (Z * Z * Z * Z) + outcome Z :=
  let '(k, u, v, prod) := s in
  let u := rho_next n a u in
  let v := rho_next n a v in
  let v := rho_next n a v in
  let prod := (prod * (u - v)) mod n in
  if k mod 100 =? 0 then
    match gcd prod n with
    | Ret d => if 1 <? d then inr (Ret d) else inl (k + 1, u, v, 1)
    | Raise e => inr (Raise e)
    | Diverge => inr Diverge
    end
  else inl (k + 1, u, v, prod).

(** algorithms.py:344-356 with [range(iterations)]. *)
Fixpoint rho_for (n a : Z) (iterations : nat) (s : Z * Z * Z * Z) : outcome Z :=
  match iterations with
  | O => Ret n
  | S iterations => match rho_step n a s with inl s => rho_for n a iterations s | inr r => r end
  end.

(** algorithms.py:285-356; the random numbers of lines 334-335 are the parameters [a] and [u];
    [randint(1, n - 3)] raises ValueError when [n < 4]. *)
Definition pollard_rho (a u n : Z) (iterations : option Z) : outcome Z :=
  if n - 3 <? 1 then Raise ValueError
  else
    match iterations with
    | Some m => rho_for n a (Z.to_nat m) (0, u, u, 1)
    | None => run (rho_step n a) (bits (n + 101)) (0, u, u, 1)
    end.

(** ** Linear algebra over GF(2) *)
(** algorithms.py:619-622. *)
Definition encode (num_cols : Z) (vector : list Z) : outcome Z :=
  foldM (fun value i => do x <- pyget vector i; Ret (if x mod 2 =? 0 then value else value + Z.shiftl 1 (num_cols - i - 1)))
    (zrange 0 num_cols) 0.

(** algorithms.py:626-630. *)
Definition identity (num_rows : Z) : list Z := map (fun i => Z.shiftr (Z.shiftl 1 (num_rows - 1)) i) (zrange 0 num_rows).

(** algorithms.py:640-653 for one [bit], with the lists [reduced] and [history] zipped: the first row whose
    lowest one is [bit] is added to the later rows that contain [bit]. *)
Fixpoint eliminate (bit : Z) (rows : list (Z * Z)) : list (Z * Z) :=
  match rows with
  | [] => []
  | (entry, his) :: rows =>
      if negb (Z.land entry bit =? 0) && (entry mod bit =? 0) then
        (entry, his) :: map (fun '(r, h) => if negb (Z.land r bit =? 0) then (Z.lxor r entry, Z.lxor h his) else (r, h)) rows
      else (entry, his) :: eliminate bit rows
  end.

(** algorithms.py:663-669: the bits of [value], the lowest one last. *)
Fixpoint decode (num_rows : nat) (value : Z) (acc : list Z) : list Z :=
  match num_rows with
  | O => acc
  | S num_rows => decode num_rows (Z.shiftr value 1) ((if value mod 2 =? 0 then 0 else 1) :: acc)
  end.

(** algorithms.py:570-673.  The loop of lines 637-655 runs over the bits 1, 2, ..., 2^(num_cols-1); for
    [num_cols = 0] the shift of line 638 raises. *)
Definition z2_gaussian_elimination (exponents : list (list Z)) : outcome (list (list Z)) :=
  let num_rows := Z.of_nat (length exponents) in
  do first <- pyget exponents 0;
  let num_cols := Z.of_nat (length first) in
  do reduced <- mapM (encode num_cols) exponents;
  if num_cols - 1 <? 0 then Raise ValueError
  else
    let rows := fold_left (fun rows i => eliminate (Z.shiftl 1 i) rows) (zrange 0 num_cols) (combine reduced (identity num_rows)) in
    Ret (map (fun '(_, value) => decode (Z.to_nat num_rows) value [])
      (filter (fun '(r, value) => negb (negb (r =? 0) || (value =? 0))) rows)).

(** ** Smooth numbers *)
(** algorithms.py:736-738, state [(n, e)]. *)
Definition strip_p (p : Z) (s : Z * Z) : (Z * Z) + outcome (Z * Z) :=
  let '(n, e) := s in if n mod p =? 0 then inl (n / p, e + 1) else inr (Ret (n, e)).

(** algorithms.py:731-743; [Some] is the early return. *)
Fixpoint smooth_loop (factor_base : list Z) (is : list Z) (n : Z) (exponents : list Z) : outcome (list Z) :=
  match is with
  | [] => Raise ValueError
  | i :: is =>
      do p <- pyget factor_base i;
      do r <- pymod n p;
      do '(n, exponents) <- (if r =? 0 then
          do '(n, e) <- run (strip_p p) (bits (Z.abs n)) (n / p, 1);
          do exponents <- pyset exponents i e;
          Ret (n, exponents)
        else Ret (n, exponents));
      if n =? 1 then Ret exponents else smooth_loop factor_base is n exponents
  end.

(** algorithms.py:676-743. *)
Definition smooth_factor (n : Z) (factor_base : list Z) : outcome (list Z) :=
  let num_primes := Z.of_nat (length factor_base) in
  let exponents := repeat 0 (Z.to_nat num_primes) in
  do p0 <- pyget factor_base 0;
  do '(start, n, exponents) <- (if p0 =? -1 then
      if n <? 0 then do exponents <- pyset exponents 0 1; Ret (1, n * -1, exponents) else Ret (1, n, exponents)
    else Ret (0, n, exponents));
  smooth_loop factor_base (zrange start num_primes) n exponents.

(** ** The continued fraction method *)
(** algorithms.py:795-807, one round; state [(i, A0, A1, Q0, Q1, P0, r0)]; the pair [(i, A1, Q1)] is yielded when [i > 0]. *)
Definition aq_step (n g : Z) (s : Z * Z * Z * Z * Z * Z * Z) : outcome (Z * Z * Z * Z * Z * Z * Z) :=
  let '(i, A0, A1, Q0, Q1, P0, r0) := s in
  do q <- pydiv (g + P0) Q1;
  let r1 := g + P0 - q * Q1 in
  do A2 <- pymod (q * A1 + A0) n;
  let P1 := g - r1 in
  let Q2 := Q0 + q * (r1 - r0) in
  Ret (i + 1, A1, A2, Q1, Q2, P1, r1).

(** algorithms.py:788-792. *)
Definition aq_init (n g : Z) : Z * Z * Z * Z * Z * Z * Z := (0, 0, 1, n, 1, 0, g).

(** The first [m] pairs that [_cfrac_aq_pairs(n)] yields (algorithms.py:746-807). *)
Fixpoint aq_take (n g : Z) (m : nat) (s : Z * Z * Z * Z * Z * Z * Z) : outcome (list (Z * Z * Z)) :=
  match m with
  | O => Ret []
  | S m' =>
      let '(i, A0, A1, Q0, Q1, P0, r0) := s in
      do s' <- aq_step n g s;
      do l <- aq_take n g m' s';
      Ret ((i, A1, Q1) :: l)
  end.
Definition cfrac_aq_pairs (n : Z) (m : nat) : outcome (list (Z * Z * Z)) :=
  do g <- integer_sqrt n;
  do s <- aq_step n g (aq_init n g);
  aq_take n g m s.

(** algorithms.py:810-857. *)
Definition multiplier_primes : list Z := [3; 5; 7; 11; 13; 17; 19; 23; 29; 31].
Definition multiplier_count (kn : Z) : outcome Z :=
  do l <- filterM (fun p => do j <- jacobi_symbol kn p; Ret (0 <=? j)) multiplier_primes;
  Ret (Z.of_nat (length l)).
(** [choices] is summarised by its greatest key and the least (first) value stored there. *)
Definition multiplier_step (n : Z) (best : option (Z * Z)) (k : Z) : outcome (option (Z * Z)) :=
  do j3 <- jacobi_symbol (k * n) 3;
  if 0 <=? j3 then
    do j5 <- jacobi_symbol (k * n) 5;
    if 0 <=? j5 then
      do count <- multiplier_count (k * n);
      Ret (match best with
           | Some (c, _) => if c <? count then Some (count, k) else best
           | None => Some (count, k)
           end)
    else Ret best
  else Ret best.
Definition cfrac_multiplier (n : Z) : outcome Z :=
  do best <- foldM (multiplier_step n) (zrange 1 1000) None;
  match best with Some (_, k) => Ret k | None => Raise ValueError end.

(** algorithms.py:531-547: the loop over the pairs; state: generator state, exponent_matrix, a_list. *)
Definition collect_step (kn g num_primes prod e : Z) (factor_base : list Z)
    (s : (Z * Z * Z * Z * Z * Z * Z) * list (list Z) * list Z) :
    ((Z * Z * Z * Z * Z * Z * Z) * list (list Z) * list Z) + outcome (list (list Z) * list Z) :=
  let '(gen, matrix, a_list) := s in
  if Z.of_nat (length matrix) <=? num_primes then
    let '(i, A0, a, Q0, q, P0, r0) := gen in
    match (do gen' <- aq_step kn g gen;
           do w <- pow3 prod e q;
           do d <- gcd q w;
           if negb (d =? q) then Ret (gen', matrix, a_list)
           else
             let q := if i mod 2 =? 1 then q * -1 else q in
             do v <- smooth_factor q factor_base;
             Ret (gen', matrix ++ [v], a_list ++ [a])) with
    | Ret s => inl s
    | Raise e => inr (Raise e)
    | Diverge => inr Diverge
    end
  else inr (Ret (matrix, a_list)).

(** algorithms.py:552-562: the pair [(x, y)] of one kernel vector. *)
Definition relation (n num_primes : Z) (factor_base : list Z) (matrix : list (list Z)) (a_list : list Z) (v : list Z) : outcome (Z * Z) :=
  do '(y, x2) <- foldM (fun '(y, x2) j =>
      do b <- pyget v j;
      if b =? 0 then Ret (y, x2)
      else
        do a <- pyget a_list j;
        do y <- pymod (a * y) n;
        do row <- pyget matrix j;
        do x2 <- mapM (fun f => do s <- pyget x2 f; do t <- pyget row f; Ret (s + t)) (zrange 0 num_primes);
        Ret (y, x2)) (zrange 0 (Z.of_nat (length v))) (1, repeat 0 (Z.to_nat num_primes));
  do x <- foldM (fun x j => do p <- pyget factor_base j; do e <- pyget x2 j; Ret (x * p ^ (e / 2))) (zrange 0 num_primes) 1;
  Ret (x, y).

(** algorithms.py:521-523. *)
Definition exponent_step (n e : Z) : Z + outcome Z := if 2 ^ e <? n then inl (e * 2) else inr (Ret e).

(** algorithms.py:436-567.  [B] is the float expression of line 487; [rounds] bounds the search for smooth values;
    [None] is the Python value None, returned when no pair gives a factor. *)
Definition cfrac (B : Z -> Z) (rounds : nat) (n : Z) (k : option Z) : outcome (option Z) :=
  do prime_list <- primes (B n);
  do k <- match k with Some k => Ret k | None => cfrac_multiplier n end;
  let kn := k * n in
  do small <- first_some (fun p => do r <- pymod n p; Ret (if r =? 0 then Some p else None)) prime_list;
  match small with
  | Some p => Ret (Some p)
  | None =>
      do odd <- filterM (fun p => if p =? 2 then Ret true else do j <- jacobi_symbol kn p; Ret (0 <=? j)) prime_list;
      let factor_base := -1 :: odd in
      let num_primes := Z.of_nat (length factor_base) in
      let prod := zprod factor_base in
      do e <- run (exponent_step n) (bits n) 1;
      do g <- integer_sqrt kn;
      do gen <- aq_step kn g (aq_init kn g);
      do '(matrix, a_list) <- run (collect_step kn g num_primes prod e factor_base) rounds (gen, [], []);
      do kernel <- z2_gaussian_elimination matrix;
      first_some (fun v =>
        do '(x, y) <- relation n num_primes factor_base matrix a_list v;
        first_some (fun val => do d <- gcd val n; Ret (if (1 <? d) && (d <? n) then Some d else None)) [x - y; x + y]) kernel
  end.
