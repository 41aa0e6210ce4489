(** * Model of rosemary/number_theory/primes/sieves.py *)
From Coq Require Import ZArith List Bool.
From Verif Require Import Base Py PyFloat_Model Core_Model PrimeList_Data.
Import ListNotations.
Open Scope Z_scope.

(** [bytearray([1])*m] as a list of booleans. *)
Definition ones (m : Z) : list bool := repeat true (Z.to_nat m).

(** The count expression [(m - a)//k + ((m - a) % k > 0)] of sieves.py:146,217-218,290-291. *)
Definition count_expr (m a k : Z) : Z :=
  (m - a) / k + (if 0 <? (m - a) mod k then 1 else 0).

(** [block[a::k] = bytearray([0])*count]. *)
Definition strike (m a k : Z) (block : list bool) : outcome (list bool) :=
  slice_fill a k (count_expr m a k) false block.

(** sieves.py:142-147, body of the loop of [eratosthenes1]. *)
Definition era1_step (m : Z) (block : list bool) (i : Z) : outcome (list bool) :=
  do b <- pyget block i;
  if b then
    let k := 2 * i + 1 in
    let start := k * k / 2 in
    strike m start k block
  else Ret block.

(** sieves.py:91-149. *)
Definition eratosthenes1 (n : Z) : outcome (list Z) :=
  if n <=? 1 then Ret []
  else
    let m := n / 2 + 1 in
    do sqrt <- integer_sqrt m;
    do block <- foldM (era1_step m) (zrange 1 (sqrt + 1)) (ones m);
    do l <- filterM (pyget block) (zrange 1 (n / 2 + n mod 2));
    Ret (2 :: map (fun i => 2 * i + 1) l).

(** [(3*i + 1) | 1]. *)
Definition num6 (i : Z) : Z := Z.lor (3 * i + 1) 1.

(** The dictionary of sieves.py:204 and 276. *)
Definition round6 (n : Z) : Z :=
  let r := n mod 6 in
  if r =? 0 then n else if r =? 1 then n - 1 else if r =? 2 then n + 4
  else if r =? 3 then n + 3 else if r =? 4 then n + 2 else n + 1.

(** sieves.py:211-218, body of the loop of [eratosthenes2]. *)
Definition era2_step (m : Z) (block : list bool) (i : Z) : outcome (list bool) :=
  do c <- pyget block i;
  if c then
    let k := num6 i in
    let kk := k * k in
    let a := kk / 3 in
    let b := (kk + 4 * k - 2 * k * Z.land i 1) / 3 in
    do block <- strike m a (2 * k) block;
    strike m b (2 * k) block
  else Ret block.

(** sieves.py:152-220. *)
Definition eratosthenes2 (n : Z) : outcome (list Z) :=
  if n <=? 1 then Ret []
  else if n <=? 3 then Ret (zrange 2 (n + 1))
  else
    let n1 := n + 1 in
    let offset := if 1 <? n1 mod 6 then 1 else 0 in
    let n2 := round6 n1 in
    let m := n2 / 3 in
    do block <- pyset (ones m) 0 false;
    do sqrt <- integer_sqrt n2;
    do block <- foldM (era2_step m) (zrange 0 (sqrt / 3 + 1)) block;
    do l <- filterM (pyget block) (zrange 1 (n2 / 3 - offset));
    Ret (2 :: 3 :: map num6 l).

(** sieves.py:283-291, body of the loop of [luo]; state [(block, a, k, t)]. *)
Definition luo_step (m : Z) (s : list bool * Z * Z * Z) (i : Z) : outcome (list bool * Z * Z * Z) :=
  let '(block, a, k, t) := s in
  let k := 3 - k in
  let a := a + 4 * k * i in
  let t := t + 4 * k in
  do c <- pyget block i;
  if c then
    let b := a + 2 * i * (3 - k) + 1 in
    do block <- strike m a t block;
    do block <- strike m b t block;
    Ret (block, a, k, t)
  else Ret (block, a, k, t).

(** sieves.py:223-293. *)
Definition luo (n : Z) : outcome (list Z) :=
  if n <=? 1 then Ret []
  else if n <=? 6 then
    Ret (if n =? 2 then [2] else if n =? 3 then [2; 3] else if n =? 4 then [2; 3]
         else [2; 3; 5])
  else
    let n1 := n + 1 in
    let offset := if 1 <? n1 mod 6 then 1 else 0 in
    let n2 := round6 n1 in
    let m := n2 / 3 in
    do sqrt <- integer_sqrt n2;
    do '(block, _, _, _) <- foldM (luo_step m) (zrange 1 (sqrt + 1)) (ones (n2 / 3), 0, 1, 2);
    do l <- filterM (pyget block) (zrange 1 (m - offset));
    Ret (2 :: 3 :: map num6 l).

(** sieves.py:16-48; [_PRIME_LIST[-1]] is the last entry of the table. *)
Definition primes (n : Z) : outcome (list Z) :=
  if n <? last PRIME_LIST 0 then Ret (firstn (bisect PRIME_LIST n) PRIME_LIST)
  else eratosthenes2 n.

(** sieves.py:434-441, inner loop of [pritchard] for one [f]. *)
Fixpoint pritchard_inner (n f : Z) (ps : list Z) (block : list bool) : outcome (list bool) :=
  match ps with
  | [] => Ret block
  | p :: ps' =>
      if n <? p * f then Ret block
      else
        do block <- pyset block (p * f) false;
        if f mod p =? 0 then Ret block else pritchard_inner n f ps' block
  end.

(** sieves.py:380-443. *)
Definition pritchard (n : Z) : outcome (list Z) :=
  if n <=? 1 then Ret []
  else
    do sqrt <- integer_sqrt n;
    do prime_list <- primes sqrt;
    do block <- pyset (ones (n + 1)) 0 false;
    do block <- pyset block 1 false;
    do block <- foldM (fun block f => pritchard_inner n f prime_list block)
                      (zrange 2 (n / 2 + 1)) block;
    filterM (pyget block) (zrange 2 (n + 1)).

(** sieves.py:51-88.  The float expression [int(n*(log(n) + log(log(n))))] is
    an arbitrary integer [m], the parameter of the model. *)
Definition primes_first_n (float_bound : Z -> Z) (n : Z) : outcome (list Z) :=
  if n <=? 0 then Ret []
  else if n <? Z.of_nat (length PRIME_LIST) then Ret (firstn (Z.to_nat n) PRIME_LIST)
  else do l <- eratosthenes2 (float_bound n); Ret (firstn (Z.to_nat n) l).

(** sieves.py:497-502: strike one block of the segmented sieve.  [offsets] is the
    dictionary [{p: offset}] as an association list in the order of
    [prime_list]; returns the block and the updated dictionary. *)
Fixpoint seg_strike (block_size : Z) (offsets : list (Z * Z)) (block : list bool)
  : outcome (list bool * list (Z * Z)) :=
  match offsets with
  | [] => Ret (block, [])
  | (p, offset) :: rest =>
      let diff := block_size - offset in
      do block <- slice_fill offset p (diff / p + (if 0 <? diff mod p then 1 else 0)) false block;
      do '(block, rest) <- seg_strike block_size rest block;
      Ret (block, (p, (- diff) mod p) :: rest)
  end.

(** sieves.py:494-508: one iteration of the outer loop; the accumulator holds
    what has been yielded so far. *)
Definition seg_step (a b block_size : Z) (s : list (Z * Z) * list Z) (start : Z)
  : outcome (list (Z * Z) * list Z) :=
  let '(offsets, out) := s in
  do '(block, offsets) <- seg_strike block_size offsets (ones block_size);
  do js <- filterM (pyget block) (zrange 0 block_size);
  let ms := map (fun j => start + 2 * j + 1) js in
  Ret (offsets, out ++ filter (fun m => (a <=? m) && (m <? b)) ms).

(** sieves.py:482-508, [sieve_interval] (the list of all values it yields).
    [range] with step 0 is a ValueError. *)
Definition sieve_interval (a b sqrt : Z) (prime_list : list Z) : outcome (list Z) :=
  let aa := a - a mod 2 in
  let bb := b + b mod 2 in
  let block_size := Z.min ((bb - aa) / 2) (8 * sqrt) in
  let offsets := map (fun p => (p, (- (aa + 1 + p)) / 2 mod p)) prime_list in
  if block_size =? 0 then Raise ValueError
  else
    do '(_, out) <- foldM (seg_step a b block_size) (zrange_step aa bb (2 * block_size)) (offsets, []);
    Ret out.

(** sieves.py:451-544; the list of all values yielded.  [b = None] is the
    one-argument call. *)
Definition prime_range (a : Z) (b : option Z) : outcome (list Z) :=
  let a := if a <? 2 then 2 else a in
  let '(a, b) := match b with None => (1, a) | Some b => (a, b) end in
  if b <=? 10 ^ 7 then
    do prime_list <- primes b;
    Ret (skipn (bisect_left prime_list a) prime_list)
  else
    do sqrt <- int_pow_half b;
    do prime_list <- primes sqrt;
    if a <=? sqrt then
      do rest <- sieve_interval (sqrt + 1) b sqrt (tl prime_list);
      Ret (skipn (bisect prime_list a) prime_list ++ rest)
    else sieve_interval a b sqrt (tl prime_list).
