(** * rosemary/number_theory/core.py *)
From Coq Require Import ZArith List Bool.
From Verif Require Import Base PyFloat_Model.
Import ListNotations.
Open Scope Z_scope.

(** core.py:36-38, the loop [while y: x, y = y, x % y]. *)
Definition gcd_step (s : Z * Z) : (Z * Z) + outcome Z :=
  let '(x, y) := s in
  if y =? 0 then inr (Ret x) else inl (y, x mod y).

(** core.py:6-38 *)
Definition gcd (x y : Z) : outcome Z :=
  let x := Z.abs x in
  let y := Z.abs y in
  let '(x, y) := if x <? y then (y, x) else (x, y) in
  run gcd_step (bits y) (x, y).

(** core.py:41-67 *)
Definition gcd_list (L : list Z) : outcome Z :=
  match L with
  | [a] => Ret a
  | a :: b :: rest =>
      do partial <- gcd a b;
      foldM (fun p x => gcd p x) rest partial
  | [] => Raise IndexError
  end.

(** core.py:114-116 *)
Definition ext_gcd_step (s : Z * Z * Z * Z * Z * Z)
  : (Z * Z * Z * Z * Z * Z) + outcome (Z * Z * Z) :=
  let '(a, b, d, u, v, w) := s in
  if w =? 0 then inr (Ret (a, b, d))
  else let q := d / w in
       inl (u, v, w, a - q * u, b - q * v, d - q * w).

(** core.py:70-122 *)
Definition ext_gcd (x y : Z) : outcome (Z * Z * Z) :=
  let switch := x <? y in
  let '(x, y) := if switch then (y, x) else (x, y) in
  let sign_x := if 0 <=? x then 1 else -1 in
  let sign_y := if 0 <=? y then 1 else -1 in
  let x := Z.abs x in
  let y := Z.abs y in
  do '(a, b, d) <- run ext_gcd_step (bits (x + y + 1)) (1, 0, x, 0, 1, y);
  if switch then Ret (sign_y * b, sign_x * a, d)
  else Ret (sign_x * a, sign_y * b, d).

(** core.py:125-156 *)
Definition lcm (x y : Z) : outcome Z :=
  if x * y =? 0 then Ret 0
  else
    let x := Z.abs x in
    let y := Z.abs y in
    do g <- gcd x y;
    pydiv (x * y) g.

(** core.py:159-185 *)
Definition lcm_list (L : list Z) : outcome Z :=
  match L with
  | [a] => Ret a
  | a :: b :: rest =>
      do partial <- lcm a b;
      foldM (fun p x => lcm p x) rest partial
  | [] => Raise IndexError
  end.

(** core.py:234-239, loop state [(k, a, t)]. *)
Definition power_mod_step (m : Z) (s : Z * Z * Z) : (Z * Z * Z) + outcome Z :=
  let '(k, a, t) := s in
  if k =? 0 then inr (Ret t)
  else
    let t := if Z.land k 1 =? 0 then t else a * t mod m in
    inl (Z.shiftr k 1, a * a mod m, t).

(** core.py:188-241 *)
Definition power_mod (a k m : Z) : outcome Z :=
  if a <? 0 then Raise ValueError
  else if k <? 0 then Raise ValueError
  else if m <? 1 then Raise ValueError
  else if a mod m =? 0 then Ret 0
  else if k =? 0 then Ret 1
  else run (power_mod_step m) (bits (bit_length k)) (k, a mod m, 1).

(** core.py:244-288 *)
Definition inverse_mod (a m : Z) : outcome Z :=
  if m <? 2 then Raise ValueError
  else
    do '(x, y, d) <- ext_gcd a m;
    if negb (d =? 1) then Raise ValueError
    else Ret (x mod m).

(** core.py:329-331 *)
Definition bit_count_step (s : Z * Z) : (Z * Z) + outcome Z :=
  let '(n, count) := s in
  if n =? 0 then inr (Ret count)
  else inl (Z.land n (n - 1), count + 1).

(** core.py:291-333 *)
Definition bit_count (n : Z) : outcome Z :=
  let n := Z.abs n in
  run bit_count_step (bits n) (n, 0).

(** core.py:392-395, state [(p, lo, hi)]; [lo] is unbound before the first
    iteration, which always happens because [b <= n]; the model starts it at 0. *)
Definition integer_log_up (n : Z) (s : Z * Z * Z) : (Z * Z * Z) + outcome (Z * Z) :=
  let '(p, lo, hi) := s in
  if p <=? n then inl (p * p, hi, Z.shiftl hi 1)
  else inr (Ret (lo, hi)).

(** core.py:399-408, binary search; state [(lo, hi)]. *)
Definition integer_log_bin (b n : Z) (s : Z * Z) : (Z * Z) + outcome Z :=
  let '(lo, hi) := s in
  if 1 <? hi - lo then
    let mid := Z.shiftr (lo + hi) 1 in
    let power := b ^ mid in
    if n <? power then inl (lo, mid)
    else if power <? n then inl (mid, hi)
    else inr (Ret mid)
  else inr (Ret lo).

(** core.py:336-410 *)
Definition integer_log (b n : Z) : outcome Z :=
  if b <=? 1 then Raise ValueError
  else if n <=? 0 then Raise ValueError
  else if n <? b then Ret 0
  else if b =? 2 then Ret (bit_length n - 1)
  else
    do '(lo, hi) <- run (integer_log_up n) (bits (Z.log2 n + 2)) (b, 0, 1);
    run (integer_log_bin b n) (bits (2 * Z.log2 n + 4)) (lo, hi).

(** core.py:535-539, Newton iteration. *)
Definition isqrt_step (n x : Z) : Z + outcome Z :=
  let y := (x + n / x) / 2 in
  if x <=? y then inr (Ret x) else inl y.

(** core.py:485-541; [int(n**0.5)] is [int_pow_half]. *)
Definition integer_sqrt (n : Z) : outcome Z :=
  if n <? 0 then Raise ValueError
  else if (n =? 0) || (n =? 1) then Ret n
  else if n <=? 2 ^ 60 then int_pow_half n
  else
    let x := Z.shiftl 1 (bit_length n / 2 + 1) in
    run (isqrt_step n) (bits x) x.

(** core.py:473-480, Halley iteration. *)
Definition nth_root_step (n m x : Z) : Z + outcome Z :=
  let xn := x ^ n in
  let num := (n - 1) * xn + (n + 1) * m in
  let den := num + 2 * xn - 2 * m in
  let y := x * num / den in
  if x <=? y then inr (Ret x) else inl y.

(** core.py:413-482 *)
Definition integer_nth_root (n m : Z) : outcome Z :=
  if m <? 0 then Raise ValueError
  else if n <? 1 then Raise ValueError
  else if n =? 1 then Ret m
  else if n =? 2 then integer_sqrt m
  else if (m =? 0) || (m =? 1) then Ret m
  else
    let b := bit_length m in
    if b <=? n then Ret 1
    else
      let x := Z.shiftl 1 (b / n + 1) in
      run (nth_root_step n m) (bits x) x.

(** core.py:585-593, one round of the loop; state [(x, m)]. *)
Definition chinese_step (s : Z * Z) (c : Z * Z) : outcome (Z * Z) :=
  let '(x, m) := s in
  let '(xi, mi) := c in
  do '(u, v, d) <- ext_gcd m mi;
  if negb (d =? 1) then Raise ValueError
  else
    let x := u * m * xi + v * mi * x in
    let m := m * mi in
    do x <- pymod x m;
    Ret (x, m).

(** core.py:544-595 *)
Definition chinese (congruences : list (Z * Z)) : outcome Z :=
  match congruences with
  | [] => Raise IndexError
  | c :: rest =>
      do '(x, m) <- foldM chinese_step rest c;
      Ret x
  end.

(** core.py:639-641, loop over [i in range(1, r)] written as a recursion over
    the moduli: [prev] is [partial_products[i-1]*moduli[i-1]].  Returns the tails
    of [partial_products] and [inverse_list] and the product of all moduli. *)
Fixpoint crt_pre_loop (prev : Z) (moduli : list Z) : outcome (list Z * list Z * Z) :=
  match moduli with
  | [] => Ret ([], [], prev)
  | mi :: rest =>
      do inv <- inverse_mod prev mi;
      do '(pp, il, product) <- crt_pre_loop (prev * mi) rest;
      Ret (prev :: pp, inv :: il, product)
  end.

(** core.py:598-645; the data tuple is [(r, moduli, partial_products,
    inverse_list, product)].  For an empty list [partial_products[r - 1]] raises
    IndexError. *)
Definition crt_preconditioning_data (moduli : list Z)
  : outcome (Z * list Z * list Z * list Z * Z) :=
  match moduli with
  | [] => Raise IndexError
  | m0 :: rest =>
      do '(pp, il, product) <- crt_pre_loop (1 * m0) rest;
      Ret (Z.of_nat (length moduli), moduli, 1 :: pp, 1 :: il, product)
  end.

(** core.py:696-698, the loop body; [i] ranges over [range(1, r)]. *)
Definition chinese_pre_step (residues moduli pp il : list Z) (x i : Z) : outcome Z :=
  do ri <- pyget residues i;
  do inv <- pyget il i;
  do mi <- pyget moduli i;
  do u <- pymod ((ri - x) * inv) mi;
  do p <- pyget pp i;
  Ret (x + u * p).

(** core.py:648-699 *)
Definition chinese_preconditioned (congruences : list (Z * Z))
           (data : Z * list Z * list Z * list Z * Z) : outcome Z :=
  let '(r, moduli, pp, il, product) := data in
  let residues := map fst congruences in
  do x <- pyget residues 0;
  do x <- foldM (chinese_pre_step residues moduli pp il) (zrange 1 r) x;
  pymod x product.

(** core.py:754-757, inner loop; state [(a, t)]. *)
Definition jacobi_inner (m : Z) (s : Z * Z) : (Z * Z) + outcome (Z * Z) :=
  let '(a, t) := s in
  if Z.land a 1 =? 0 then
    let a := Z.shiftr a 1 in
    let r := Z.land m 7 in
    let t := if (r =? 3) || (r =? 5) then - t else t in
    inl (a, t)
  else inr (Ret (a, t)).

(** core.py:753-763, outer loop; state [(a, m, t)]. *)
Definition jacobi_step (s : Z * Z * Z) : (Z * Z * Z) + outcome Z :=
  let '(a, m, t) := s in
  if a =? 0 then inr (if m =? 1 then Ret t else Ret 0)
  else
    match run (jacobi_inner m) (bits (Z.abs a)) (a, t) with
    | Ret (a, t) =>
        let '(a, m) := (m, a) in
        let t := if (Z.land a 3 =? 3) && (Z.land m 3 =? 3) then - t else t in
        inl (a mod m, m, t)
    | Raise e => inr (Raise e)
    | Diverge => inr Diverge
    end.

(** core.py:702-768 *)
Definition jacobi_symbol (a m : Z) : outcome Z :=
  if Z.land m 1 =? 0 then Raise ValueError
  else run jacobi_step (bits (Z.abs m + 1)) (a mod m, m, 1).

(** core.py:802-805; state [(pk, lo, hi)], [lo] unbound before the first
    iteration, which always happens because [n % p == 0]. *)
Definition valuation_up (n : Z) (s : Z * Z * Z) : (Z * Z * Z) + outcome (Z * Z) :=
  let '(pk, lo, hi) := s in
  if n mod pk =? 0 then inl (pk * pk, hi, Z.shiftl hi 1)
  else inr (Ret (lo, hi)).

(** core.py:809-815 *)
Definition valuation_bin (p n : Z) (s : Z * Z) : (Z * Z) + outcome Z :=
  let '(lo, hi) := s in
  if 1 <? hi - lo then
    let mid := Z.shiftr (lo + hi) 1 in
    if n mod p ^ mid =? 0 then inl (mid, hi) else inl (lo, mid)
  else inr (Ret lo).

(** core.py:771-817 *)
Definition valuation (p n : Z) : outcome Z :=
  if p =? 0 then Raise ZeroDivisionError
  else if negb (n mod p =? 0) || (n <? p) then Ret 0
  else
    let p := Z.abs p in
    let n := Z.abs n in
    do '(lo, hi) <- run (valuation_up n) (bits (Z.log2 n + 2)) (p, 0, 1);
    run (valuation_bin p n) (bits (2 * Z.log2 n + 4)) (lo, hi).
