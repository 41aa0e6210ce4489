(** * Model of the partition numbers of rosemary/combinatorics/enumeration/enumeration.py and of the
      eta series of rosemary/algebra/power_series/power_series.py *)
From Coq Require Import ZArith List QArith Qround.
From Verif Require Import Base Double_Model PyFloat_Model Poly_Model.
Import ListNotations.
Open Scope Z_scope.

(** [n**(0.5)] for an integer [n >= 1], as a double (see PyFloat_Model: the C library's
    [pow] is taken to be correctly rounded). *)
Definition sqrt_double (n : Z) : outcome Q :=
  if 2 ^ 1024 - 2 ^ 970 <=? n then Raise OverflowError
  else
    let v := float_of_int n in
    let j := Z.log2 v / 2 in
    if j <=? 52 then
      let w := v * 4 ^ (52 - j) in
      let f := Z.sqrt w in
      let s := if w <=? f * f + f then f else f + 1 in
      Ret (scale s (j - 52))
    else
      let c := 4 ^ (j - 52) in
      let f := Z.sqrt (v / c) in
      let s := if 4 * v <? (2 * f + 1) * (2 * f + 1) * c then f else f + 1 in
      Ret (scale s (j - 52)).

(** enumeration.py:172, [int((1 + (1 + 24*m)**(0.5))/6)]; the argument is positive, so
    [int] is the floor. *)
Definition max_idx (m : Z) : outcome Z :=
  do r <- sqrt_double (1 + 24 * m);
  Ret (Qfloor (fl (fl (1 + r) / 6)%Q)).

(** enumeration.py:171-184, the computation of [values[m]]. *)
Definition partition_value (values : list Z) (m : Z) : outcome Z :=
  do mx <- max_idx m;
  do '(total, _) <- foldM (fun '(total, sign) k =>
      let v1 := m - k * (3 * k - 1) / 2 in
      do t1 <- pyget values v1;
      let v2 := m - k * (3 * k + 1) / 2 in
      do t2 <- (if v2 <? 0 then Ret 0 else pyget values v2);
      Ret (total + sign * (t1 + t2), sign * (-1)))
    (rev (zrange 1 (mx + 1))) (0, (-1) ^ (mx + 1));
  Ret total.

(** enumeration.py:162-186. *)
Definition partition_list (n : Z) : outcome (list Z) :=
  let values := zeros (n + 1) in
  do values <- pyset values 0 1;
  do values <- pyset values 1 1;
  foldM (fun values m => do total <- partition_value values m; pyset values m total) (zrange 2 (n + 1)) values.

(** enumeration.py:189-190. *)
Definition partition_number (n : Z) : outcome Z := do l <- partition_list n; pyget l n.

(** enumeration.py:195-221. *)
Definition rth_power_partition_number (r n : Z) : outcome Z :=
  if n =? 0 then Ret 1
  else if r =? 1 then partition_number n
  else
    let Pr := zeros (n + 1) in
    do Pr <- pyset Pr 0 1;
    do P <- foldM (fun P k => do v <- partition_number k; Ret (P ++ [v])) (zrange 0 (n + 1)) [];
    do Pr <- foldM (fun Pr k =>
        do ss <- foldM (fun ss i =>
            do a <- pyget P i;
            do b <- pyget Pr (k - i);
            Ret (ss + a * ((r + 1) * i - k) * b)) (zrange 1 (k + 1)) 0;
        pyset Pr k (ss / k)) (zrange 1 (n + 1)) Pr;
    pyget Pr n.

(** power_series.py:15-36, the loop; [t] counts the terms, two for each [n] of the
    generator, and the sign repeats with period four. *)
Definition eta_term (t : Z) : Z :=
  let n := t / 2 + 1 in if t mod 2 =? 0 then n * (3 * n - 1) / 2 else n * (3 * n + 1) / 2.
Definition eta_sign (t : Z) : Z := if t mod 4 <? 2 then -1 else 1.
Fixpoint eta_loop (fuel : nat) (prec t : Z) (coeff_list : list Z) : outcome (list Z) :=
  match fuel with
  | O => Diverge
  | S fuel =>
      if prec <=? eta_term t then Ret coeff_list
      else do coeff_list <- pyset coeff_list (eta_term t) (eta_sign t); eta_loop fuel prec (t + 1) coeff_list
  end.
Definition eta_series (prec : Z) : outcome (list Z) :=
  do coeff_list <- pyset (zeros prec) 0 1;
  eta_loop (S (Z.to_nat prec)) prec 0 coeff_list.

(** power_series.py:9-12. *)
Definition delta_series (n : Z) : outcome (list Z) := do eta <- eta_series n; ps_power eta 24.
