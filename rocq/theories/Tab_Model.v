(** * Model of rosemary/number_theory/arithmetic_functions/sieves.py *)
From Coq Require Import ZArith List Bool.
From Verif Require Import Base Py PyFloat_Model Core_Model Sieves_Model.
Import ListNotations.
Open Scope Z_scope.

(** [range(a, b, k)] with [k >= 1]. *)
Definition srange (a b k : Z) : list Z := map (fun i => a + i * k) (zrange 0 (slice_len a b k)).

(** [for i in range(a, b, k): block[i] = f(i, block[i])]. *)
Definition sweep (f : Z -> Z -> outcome Z) (a b k : Z) (block : list Z) : outcome (list Z) :=
  foldM (fun block i => do x <- pyget block i; do y <- f i x; pyset block i y) (srange a b k) block.

(** sieves.py:49-52, the loop over the powers [pk]; state [(pk, block)]. *)
Definition phi_step (n p : Z) (s : Z * list Z) : (Z * list Z) + outcome (list Z) :=
  let '(pk, block) := s in
  if pk <=? n then
    match sweep (fun _ x => Ret (x * p)) pk (n + 1) pk block with
    | Ret block => inl (pk * p, block)
    | Raise e => inr (Raise e)
    | Diverge => inr Diverge
    end
  else inr (Ret block).

(** sieves.py:10-54.  The number of rounds of the inner loop is bounded because [pk] grows. *)
Definition euler_phi_list (n : Z) : outcome (list Z) :=
  if n <=? 0 then Raise ValueError
  else
    do block <- pyset (repeat 1 (Z.to_nat (n + 1))) 0 0;
    do prime_list <- primes n;
    foldM (fun block p =>
      do block <- sweep (fun _ x => Ret (x * (p - 1))) p (n + 1) p block;
      run (phi_step n p) (bits n) (p * p, block)) prime_list block.

(** sieves.py:99-104, one prime [p] of the sieve; the entry [i] of the tables stands for [start + i]. *)
Definition mu_sweep (a b p start : Z) (s : list Z * list Z) : outcome (list Z * list Z) :=
  foldM (fun '(block, values) i =>
    do r <- pymod (start + i) (p * p);
    if r =? 0 then
      do block <- pyset block i 0; Ret (block, values)
    else
      do x <- pyget block i; do block <- pyset block i (x * -1);
      do v <- pyget values i; do values <- pyset values i (v * p);
      Ret (block, values)) (srange a b p) s.

(** sieves.py:107-108. *)
Definition mu_fix (start i : Z) (block values : list Z) : outcome (list Z) :=
  do x <- pyget block i; do v <- pyget values i;
  if negb (x =? 0) && (v <? start + i) then pyset block i (x * -1) else Ret block.

(** sieves.py:60-110. *)
Definition moebius_list (n : Z) : outcome (list Z) :=
  if n <=? 0 then Raise ValueError
  else
    do sqrt <- int_pow_half n;
    do prime_list <- primes sqrt;
    do block <- pyset (repeat 1 (Z.to_nat (n + 1))) 0 0;
    do '(block, values) <- foldM (fun s p => mu_sweep p (n + 1) p 0 s) prime_list (block, repeat 1 (Z.to_nat (n + 1)));
    foldM (fun block i => mu_fix 0 i block values) (zrange 0 (n + 1)) block.

(** sieves.py:223-230 and 163-169: the loop over the pairs [j <= k] with [j*k <= n]. *)
Definition pair_sweep (sq : Z -> Z) (f : Z -> Z -> Z) (n : Z) : outcome (list Z) :=
  do sqrt <- int_pow_half n;
  foldM (fun block j =>
    do x <- pyget block (j * j); do block <- pyset block (j * j) (x + sq j);
    foldM (fun block k => do x <- pyget block (k * j); pyset block (k * j) (x + f j k)) (zrange (j + 1) (n / j + 1)) block)
    (zrange 1 (sqrt + 1)) (repeat 0 (Z.to_nat (n + 1))).

(** sieves.py:192-230. *)
Definition tau_list (n : Z) : outcome (list Z) :=
  if n <=? 0 then Raise ValueError else pair_sweep (fun _ => 1) (fun _ _ => 2) n.

(** sieves.py:181-187, the loop over the powers [pk]; state [(pk, last, term, block)]. *)
Definition sigma_step (n p mul : Z) (s : Z * Z * Z * list Z) : (Z * Z * Z * list Z) + outcome (list Z) :=
  let '(pk, last, term, block) := s in
  if pk <=? n then
    match sweep (fun _ x => pydiv (x * (term - 1)) (last - 1)) pk (n + 1) pk block with
    | Ret block => inl (pk * p, term, term * mul, block)
    | Raise e => inr (Raise e)
    | Diverge => inr Diverge
    end
  else inr (Ret block).

(** sieves.py:113-189. *)
Definition sigma_list (n k : Z) : outcome (list Z) :=
  if n <=? 0 then Raise ValueError
  else if k =? 0 then tau_list n
  else if k <? 0 then Raise ValueError
  else if (k =? 1) && (n <=? 10 ^ 4) then pair_sweep (fun j => j) (fun j k => j + k) n
  else
    do block <- pyset (repeat 1 (Z.to_nat (n + 1))) 0 0;
    do prime_list <- primes n;
    foldM (fun block p =>
      let mul := p ^ k in
      run (sigma_step n p mul) (bits n) (p, mul, mul ^ 2, block)) prime_list block.

(** sieves.py:286-291: the items of one block; the boolean tells whether the generator returned. *)
Fixpoint mu_emit (b start : Z) (is : list Z) (block values : list Z) : outcome (list (Z * Z) * bool) :=
  match is with
  | [] => Ret ([], false)
  | i :: is =>
      if b <=? start + i then Ret ([], true)
      else
        do block <- mu_fix start i block values;
        do m <- pyget block i;
        do '(l, stop) <- mu_emit b start is block values;
        Ret ((start + i, m) :: l, stop)
  end.

(** sieves.py:273-291: the blocks. *)
Fixpoint mu_blocks (a b size : Z) (prime_list starts : list Z) : outcome (list (Z * Z)) :=
  match starts with
  | [] => Ret []
  | start :: starts =>
      do '(block, values) <- foldM (fun s p =>
        do q <- pydiv start p;
        do r <- pymod (p * (q + 1) - a) size;
        do offset <- pymod r p;
        mu_sweep offset size p start s) prime_list (repeat 1 (Z.to_nat size), repeat 1 (Z.to_nat size));
      do '(l, stop) <- mu_emit b start (zrange 0 size) block values;
      if stop : bool then Ret l
      else do l' <- mu_blocks a b size prime_list starts; Ret (l ++ l')
  end.

(** sieves.py:238-291: the list of the pairs the generator yields. *)
Definition moebius_range (a : Z) (b : option Z) : outcome (list (Z * Z)) :=
  let a := if a <? 2 then 1 else a in
  let '(a, b) := match b with None => (1, a) | Some b => (a, b) end in
  if b <=? a then Ret []
  else
    do size <- integer_sqrt b;
    do prime_list <- primes size;
    mu_blocks a b size prime_list (srange a b size).
