(** * Model of rosemary/number_theory/arithmetic_functions/sums.py *)
From Coq Require Import ZArith List Bool.
From Verif Require Import Base Py PyFloat_Model Dict Tab_Model.
Import ListNotations.
Open Scope Z_scope.

(** sums.py:55-57, 113-115 and 174-176: the table of the sums up to [sqrt];
    [term i x] is the summand at [i] when the entry of the sieve is [x]. *)
Definition start_cache (term : Z -> Z -> Z) (sqrt : Z) (tab : list Z) : outcome (list (Z * Z)) :=
  foldM (fun cache i =>
    do c <- dgetM cache (i - 1);
    do x <- pyget tab i;
    Ret (dset cache i (c + term i x))) (zrange 2 (sqrt + 1)) [(1, 1)].

(** sums.py:59-70, the inner function [S]; the dictionary that Python shares between
    the calls is passed along.  The depth of the recursion is bounded by [fuel]. *)
Fixpoint phi_S (fuel : nat) (phi_list : list Z) (n : Z) (cache : list (Z * Z)) : outcome (Z * list (Z * Z)) :=
  match dget cache n with
  | Some v => Ret (v, cache)
  | None =>
    match fuel with
    | O => Diverge
    | S fuel =>
      do sqrt_n <- int_pow_half n;
      do c <- dgetM cache sqrt_n;
      do '(value, cache) <- foldM (fun '(value, cache) d =>
        do '(x, cache) <- phi_S fuel phi_list (n / d) cache;
        do p <- pyget phi_list d;
        Ret (value + (x + p * (n / d)), cache)) (zrange 2 (sqrt_n + 1)) (n - sqrt_n * c, cache);
      let r := n * (n + 1) / 2 - value in
      Ret (r, dset cache n r)
    end
  end.

(** sums.py:8-72. *)
Definition euler_phi_sum (n : Z) : outcome Z :=
  if n <=? 0 then Raise ValueError
  else
    do sqrt <- int_pow_half n;
    do phi_list <- euler_phi_list sqrt;
    do cache <- start_cache (fun _ x => x) sqrt phi_list;
    do '(v, _) <- phi_S (bits n) phi_list n cache;
    Ret v.

(** sums.py:117-127, the inner function [T]. *)
Fixpoint phi_T (fuel : nat) (totients : list Z) (n : Z) (cache : list (Z * Z)) : outcome (Z * list (Z * Z)) :=
  match dget cache n with
  | Some v => Ret (v, cache)
  | None =>
    match fuel with
    | O => Diverge
    | S fuel =>
      do r <- int_pow_half n;
      let sqrt_n := r + 1 in
      do s1 <- foldM (fun s d => do t <- pyget totients d; Ret (s + d * t * (n / d - d + 1) * (n / d + d) / 2)) (zrange 1 sqrt_n) 0;
      do '(s2, cache) <- foldM (fun '(s, cache) d =>
        do '(x, cache) <- phi_T fuel totients (n / d) cache;
        do '(y, cache) <- phi_T fuel totients (d - 1) cache;
        Ret (s + d * (x - y), cache)) (zrange 2 sqrt_n) (0, cache);
      do s3 <- foldM (fun s d => do t <- pyget totients d; Ret (s + d * d * t)) (zrange 1 sqrt_n) 0;
      let v := n * (n + 1) * (2 * n + 1) / 6 - (s1 + s2 - s3) in
      Ret (v, dset cache n v)
    end
  end.

(** sums.py:78-129. *)
Definition euler_phi_weighted_sum (n : Z) : outcome Z :=
  if n <=? 0 then Raise ValueError
  else
    do sqrt <- int_pow_half n;
    do totients <- euler_phi_list sqrt;
    do cache <- start_cache (fun i x => i * x) sqrt totients;
    do '(v, _) <- phi_T (bits n) totients n cache;
    Ret v.

(** sums.py:178-187, the inner function [M]. *)
Fixpoint mu_M (fuel : nat) (mu_list : list Z) (n : Z) (cache : list (Z * Z)) : outcome (Z * list (Z * Z)) :=
  match dget cache n with
  | Some v => Ret (v, cache)
  | None =>
    match fuel with
    | O => Diverge
    | S fuel =>
      do r <- int_pow_half n;
      let sqrt_n := r + 1 in
      do '(value, cache) <- foldM (fun '(value, cache) d =>
        do '(x, cache) <- mu_M fuel mu_list (n / d) cache;
        do '(y, cache) <- mu_M fuel mu_list (d - 1) cache;
        do m <- pyget mu_list d;
        Ret (value + (x - y) + m * (n / d - d), cache)) (zrange 2 sqrt_n) (n - 1, cache);
      let v := 1 - value in
      Ret (v, dset cache n v)
    end
  end.

(** sums.py:132-189. *)
Definition moebius_sum (n : Z) : outcome Z :=
  if n <=? 0 then Raise ValueError
  else
    do sqrt <- int_pow_half n;
    do mu_list <- moebius_list sqrt;
    do cache <- start_cache (fun _ x => x) sqrt mu_list;
    do '(v, _) <- mu_M (bits n) mu_list n cache;
    Ret v.

(** sums.py:195-234. *)
Definition sigma_sum (n : Z) : outcome Z :=
  if n <=? 0 then Raise ValueError
  else
    do sqrt <- int_pow_half n;
    let value := fold_left (fun value k =>
      let nk := n / k in
      let tt := nk - k + 1 in
      value + 2 * k * tt + tt * (nk + k)) (zrange 1 (sqrt + 1)) (- sqrt * (sqrt + 1)) in
    Ret (value / 2).
