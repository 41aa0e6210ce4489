(** * Model of rosemary/algebra/polynomials and rosemary/algebra/power_series
    The coefficients are integers. *)
From Coq Require Import ZArith List Bool.
From Verif Require Import Base Py Lists.
Import ListNotations.
Open Scope Z_scope.

Definition len (A : list Z) : Z := Z.of_nat (length A).
(** [0] * n *)
Definition zeros (n : Z) : list Z := repeat 0 (Z.to_nat n).

(** C[i] += c *)
Definition add_at (C : list Z) (i c : Z) : outcome (list Z) := do x <- pyget C i; pyset C i (x + c).

(** for (i, c) in enumerate(B): C[i] += s*c *)
Definition add_all (s : Z) (B C : list Z) : outcome (list Z) :=
  foldM (fun C i => do c <- pyget B i; add_at C i (s * c)) (zrange 0 (len B)) C.

(** algorithms.py:150-180, [list_add]. *)
Definition list_add (A B : list Z) : outcome (list Z) :=
  if len B <=? len A then add_all 1 B A else add_all 1 A B.

(** algorithms.py:183-213, [list_subtract]. *)
Definition list_subtract (A B : list Z) : outcome (list Z) :=
  if len B <=? len A then add_all (-1) B A else add_all 1 A (map Z.opp B).

(** algorithms.py:35-39 and power_series.py:80-84: the double loop. *)
Definition mul_loop (M N : list Z) : outcome (list Z) :=
  foldM (fun P i =>
           foldM (fun P j => do a <- pyget M i; do b <- pyget N j; add_at P (i + j) (a * b))
                 (zrange 0 (len N)) P)
        (zrange 0 (len M)) (zeros (len M + len N - 1)).

(** algorithms.py:4-39, [mul_classical]. *)
Definition mul_classical (M N : list Z) : outcome (list Z) :=
  if (len M =? 0) || (len N =? 0) then Ret [] else mul_loop M N.

(** power_series.py:77-84, [ps_mult_classical]. *)
Definition ps_mult_classical (M N : list Z) : outcome (list Z) := mul_loop M N.

(** M[0:k] and M[k:] *)
Definition low (k : Z) (M : list Z) : list Z := firstn (Z.to_nat k) M.
Definition high (k : Z) (M : list Z) : list Z := skipn (Z.to_nat k) M.

(** algorithms.py:42-102, [mul_karatsuba].  [fuel] bounds the depth of the recursion. *)
Fixpoint karatsuba (fuel : nat) (M N : list Z) : outcome (list Z) :=
  match fuel with
  | O => Diverge
  | S f =>
      let m := len M in
      let n := len N in
      let kthresh := 30 in
      if (m <? kthresh) || (n <? kthresh) then mul_classical M N
      else
        let k := Z.max m n / 2 in
        let f0 := low k M in
        let f1 := high k M in
        let g0 := low k N in
        let g1 := high k N in
        do z0 <- karatsuba f f0 g0;
        do z2 <- karatsuba f f1 g1;
        do f1_f0 <- list_add f1 f0;
        do g1_g0 <- list_add g1 g0;
        do xxyy <- karatsuba f f1_f0 g1_g0;
        do d <- list_subtract xxyy z2;
        do z1 <- list_subtract d z0;
        let t2 := zeros (2 * k) ++ z2 in
        let t1 := zeros k ++ z1 in
        do s <- list_add t2 t1;
        list_add s z0
  end.
Definition mul_karatsuba (M N : list Z) : outcome (list Z) := karatsuba (1 + length M + length N) M N.

(** [sum(e) for e in zip_longest(A, B, fillvalue=0)] and the like: [h] of the two entries. *)
Fixpoint zip_with (h : Z -> Z -> Z) (A B : list Z) : list Z :=
  match A, B with
  | [], _ => map (h 0) B
  | a :: A', [] => h a 0 :: zip_with h A' []
  | a :: A', b :: B' => h a b :: zip_with h A' B'
  end.

(** power_series.py:87-119, [ps_mult_karatsuba].  zip_longest of three lists is written as two of
    two lists. *)
Fixpoint ps_karatsuba (fuel : nat) (kthresh : Z) (M N : list Z) : outcome (list Z) :=
  match fuel with
  | O => Diverge
  | S f =>
      let m := len M in
      let n := len N in
      if (m <? kthresh) || (n <? kthresh) then ps_mult_classical M N
      else
        let k := Z.max m n / 2 in
        let f0 := low k M in
        let f1 := high k M in
        let g0 := low k N in
        let g1 := high k N in
        do z0 <- ps_karatsuba f kthresh f0 g0;
        do z2 <- ps_karatsuba f kthresh f1 g1;
        let f1_f0 := zip_with Z.add f1 f0 in
        let g1_g0 := zip_with Z.add g1 g0 in
        do xxyy <- ps_karatsuba f kthresh f1_f0 g1_g0;
        let z1 := zip_with Z.sub (zip_with Z.sub xxyy z2) z0 in
        let t2 := zeros (2 * k) ++ z2 in
        let t1 := zeros k ++ z1 in
        Ret (zip_with Z.add (zip_with Z.add t2 t1) z0)
  end.
Definition ps_mult_karatsuba (kthresh : Z) (M N : list Z) : outcome (list Z) :=
  ps_karatsuba (1 + length M + length N) kthresh M N.

(** algorithms.py:132-134: while A[shift] == 0: shift += 1 *)
Fixpoint first_nonzero (A : list Z) : outcome Z :=
  match A with
  | [] => Raise IndexError
  | a :: A' => if a =? 0 then do s <- first_nonzero A'; Ret (1 + s) else Ret 0
  end.

(** a0**k: an integer for k >= 0.  For k < 0 a float, which is not modelled ([Raise TypeError]
    stands for it), or ZeroDivisionError. *)
Definition int_pow (a k : Z) : outcome Z :=
  if 0 <=? k then Ret (a ^ k) else if a =? 0 then Raise ZeroDivisionError else Raise TypeError.

(** algorithms.py:142-146 and power_series.py:69-73: the rounds i = 1, ..., top-1 of the
    recurrence; the inner loop stops at min(n, i + 1), where n is the length of B. *)
Definition power_rounds (B : list Z) (a0 k top : Z) (P : list Z) : outcome (list Z) :=
  foldM (fun P i =>
           do ss <- foldM (fun ss j =>
                             do b <- pyget B j;
                             do p <- pyget P (i - j);
                             Ret (ss + b * ((k + 1) * j - i) * p))
                          (zrange 1 (Z.min (len B) (i + 1))) 0;
           do v <- pydiv ss (i * a0);
           pyset P i v)
        (zrange 1 top) P.

(** algorithms.py:105-147, [power_jcp].  [0]*shift*k is empty for k < 0. *)
Definition power_jcp (A : list Z) (k : Z) : outcome (list Z) :=
  do shift <- first_nonzero A;
  let B := skipn (Z.to_nat shift) A in
  let n := len B in
  let new_deg := (n - 1) * k + 1 in
  let P := zeros new_deg in
  do a0 <- pyget B 0;
  do a0k <- int_pow a0 k;
  do P <- pyset P 0 a0k;
  do P <- power_rounds B a0 k new_deg P;
  Ret (zeros (shift * k) ++ P).

(** power_series.py:58-74, [ps_power].  Here the inner loop runs to i + 1, which does not exceed
    the length of A. *)
Definition ps_power (A : list Z) (k : Z) : outcome (list Z) :=
  let n := len A in
  let P := zeros n in
  do a0 <- pyget A 0;
  do a0k <- int_pow a0 k;
  do P <- pyset P 0 a0k;
  foldM (fun P i =>
           do ss <- foldM (fun ss j =>
                             do b <- pyget A j;
                             do p <- pyget P (i - j);
                             Ret (ss + b * ((k + 1) * j - i) * p))
                          (zrange 1 (i + 1)) 0;
           do v <- pydiv ss (i * a0);
           pyset P i v)
        (zrange 1 n) P.

(** power_series.py:39-55, [ps_invert]. *)
Definition ps_invert (A : list Z) : outcome (list Z) :=
  let n := len A in
  let B := zeros n in
  do a0 <- pyget A 0;
  do b0 <- pydiv 1 a0;
  do B <- pyset B 0 b0;
  foldM (fun B k =>
           do ss <- foldM (fun ss i => do a <- pyget A i; do b <- pyget B (k - i); Ret (ss + a * b)) (zrange 0 (k + 1)) 0;
           do v <- pydiv (- ss) a0;
           pyset B k v)
        (zrange 1 n) B.

(** ** The class Polynomial: an object is its list of coefficients; [degree] is len - 1 and
    [lead_coeff] the last one.  The name of the variable is not modelled. *)

(** polynomials.py:45-47: while num_coeffs > 1 and coeffs[num_coeffs - 1] == 0: pop *)
Fixpoint strip (num_coeffs : nat) (coeffs : list Z) : list Z :=
  match num_coeffs with
  | S (S _ as n) => if last coeffs 0 =? 0 then strip n (removelast coeffs) else coeffs
  | _ => coeffs
  end.

(** polynomials.py:14-64, [Polynomial(L)] for a list or a tuple. *)
Definition polynomial (L : list Z) : list Z :=
  match L with [] => [0] | _ => strip (length L) L end.

(** The argument of an operation: a Polynomial or an integer; [Polynomial(c)] is [[c]]
    (polynomials.py:53). *)
Inductive operand := Poly (q : list Z) | Num (c : Z).

(** polynomials.py:104-121, [__add__], and 123-130, [__radd__]. *)
Definition p_add (p : list Z) (o : operand) : outcome (list Z) :=
  let q := match o with Poly q => q | Num c => [c] end in
  do s <- list_add p q; Ret (polynomial s).

(** polynomials.py:132-141, [__neg__]. *)
Definition p_neg (p : list Z) : list Z := polynomial (map Z.opp p).

(** polynomials.py:143-160, [__sub__]: note line 153. *)
Definition p_sub (p : list Z) (o : operand) : outcome (list Z) :=
  match o with
  | Num c => p_add p (Poly [c])
  | Poly q => do s <- list_subtract p q; Ret (polynomial s)
  end.

(** polynomials.py:162-169, [__rsub__]: c - p for a number c. *)
Definition p_rsub (p : list Z) (c : Z) : outcome (list Z) := p_add (p_neg p) (Num c).

(** polynomials.py:171-190, [__mul__], and 192-199, [__rmul__]. *)
Definition p_mul (p : list Z) (o : operand) : outcome (list Z) :=
  match o with
  | Num c => Ret (polynomial (map (fun a => c * a) p))
  | Poly q => do s <- mul_karatsuba p q; Ret (polynomial s)
  end.

(** polynomials.py:201-211, [__pow__]. *)
Definition p_pow (p : list Z) (k : Z) : outcome (list Z) := do s <- power_jcp p k; Ret (polynomial s).

(** polynomials.py:220-235, [__eq__]: equality of lists; 237-252, [__ne__], is its negation. *)
Fixpoint list_eqb (A B : list Z) : bool :=
  match A, B with
  | [], [] => true
  | a :: A', b :: B' => (a =? b) && list_eqb A' B'
  | _, _ => false
  end.
Definition p_eq (p : list Z) (o : operand) : bool :=
  match o with Poly q => list_eqb p q | Num c => list_eqb [c] p end.

(** polynomials.py:254-263, [__call__]. *)
Definition p_call (p : list Z) (x : Z) : Z := fold_left (fun v c => v * x + c) (rev p) 0.

(** polynomials.py:276-294, [power_binary], k >= 0.  The loop runs once for each binary digit. *)
Fixpoint power_loop (fuel : nat) (z y : list Z) (k : Z) : outcome (list Z) :=
  match fuel with
  | O => Diverge
  | S f =>
      do y <- (if k mod 2 =? 1 then p_mul z (Poly y) else Ret y);
      let k := k / 2 in
      if k =? 0 then Ret y
      else do z <- p_mul z (Poly z); power_loop f z y k
  end.
Definition power_binary (p : list Z) (k : Z) : outcome (list Z) :=
  let y := polynomial [1] in
  if k =? 0 then Ret y else power_loop (bits k) p y k.

(** polynomials.py:296-336, [pseudo_quo_rem], for a Polynomial argument.
    [while j] is the loop of lines 329-333. *)
Definition pqr_inner (v : list Z) (n k : Z) (u : list Z) : outcome (list Z) :=
  foldM (fun u j =>
           do l <- pyget v n;
           do x <- pyget u j;
           if j <? k then pyset u j (l * x)
           else do t <- pyget u (n + k); do w <- pyget v (j - k); pyset u j (l * x - t * w))
        (rev (zrange 0 (n + k))) u.
Definition pseudo_quo_rem (self other : list Z) : outcome (list Z * list Z) :=
  let u := self in
  let v := other in
  let m := len u - 1 in
  let n := len v - 1 in
  if m <? n then Ret (polynomial [0], self)
  else
    let q := zeros (m - n + 1) in
    do '(q, u) <- foldM (fun '(q, u) k =>
                           do t <- pyget u (n + k);
                           do l <- pyget v n;
                           do q <- pyset q k (t * l ^ k);
                           do u <- pqr_inner v n k u;
                           Ret (q, u))
                        (rev (zrange 0 (m - n + 1))) (q, u);
    Ret (polynomial q, polynomial (low n u)).

(** polynomials.py:338-372, [quo_rem], for a Polynomial argument. *)
Definition quo_rem (self other : list Z) : outcome (list Z * list Z) :=
  let a := self in
  let b := other in
  let k := len a in
  let l := len b in
  if k <? l then Ret (polynomial [0], polynomial a)
  else
    do lc <- pyget b (l - 1);
    let r := low k a in
    let q := zeros (k - l + 1) in
    do top <- pyget a (k - 1);
    do md <- pymod top lc;
    if negb (md =? 0) then Raise ValueError
    else
      do '(q, r) <- foldM (fun '(q, r) i =>
                             do x <- pyget r (i + l - 1);
                             do d <- pydiv x lc;
                             do q <- pyset q i d;
                             do r <- foldM (fun r j => do qi <- pyget q i; do bj <- pyget b j; add_at r (i + j) (- (qi * bj))) (zrange 0 l) r;
                             Ret (q, r))
                          (rev (zrange 0 (k - l + 1))) (q, r);
      Ret (polynomial q, polynomial r).
