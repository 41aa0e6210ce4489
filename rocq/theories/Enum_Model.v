(** * Model of rosemary/combinatorics/enumeration/enumeration.py: closed counts *)
From Coq Require Import ZArith List Bool.
From Verif Require Import Base Arith_Model.
Import ListNotations.
Open Scope Z_scope.

(** enumeration.py:69-93, [binomial]. *)
Definition binomial (n k : Z) : outcome Z :=
  let k := Z.min k (n - k) in
  let pp := fold_left (fun pp e => pp * e) (zrange (n - k + 1) (n + 1)) 1 in
  foldM pydiv (zrange 2 (k + 1)) pp.

(** enumeration.py:96-123, [multinomial]. *)
Definition multinomial (n : Z) (k : list Z) : outcome Z :=
  if zsum k >? n then Raise ValueError
  else if Z.of_nat (length k) =? 0 then Raise ValueError
  else
    do num <- factorial n;
    do den <- foldM (fun den e => do f <- factorial e; Ret (den * f)) k 1;
    pydiv num den.

(** enumeration.py:44-47. *)
Definition bell_inner (B : list Z) (i : Z) : outcome Z :=
  do '(_, value) <- foldM (fun '(coeff, value) k =>
      do b <- pyget B (i - k);
      do coeff' <- pydiv (coeff * (i - k)) k;
      Ret (coeff', value + coeff * b)) (zrange 1 (i + 1)) (1, 0);
  Ret value.

(** enumeration.py:11-49, [bell_number]. *)
Definition bell_number (n : Z) : outcome Z :=
  if n <? 0 then Raise ValueError
  else
    do B <- pyset (repeat 0 (Z.to_nat (n + 1))) 0 1;
    do B <- foldM (fun B i => do v <- bell_inner B i; pyset B i v) (zrange 1 (n + 1)) B;
    pyget B n.

(** The dictionary S of [stirling_number2], keyed by pairs. *)
Definition pdict := Z -> Z -> option Z.
Definition pd_set (S : pdict) (i j v : Z) : pdict := fun a b => if (a =? i) && (b =? j) then Some v else S a b.
Definition pd_get (S : pdict) (i j : Z) : outcome Z := match S i j with Some v => Ret v | None => Raise KeyError end.

(** enumeration.py:52-66, [stirling_number2]. *)
Definition stirling_number2 (m n : Z) : outcome Z :=
  let S : pdict := pd_set (fun _ _ => None) 0 0 1 in
  let S := fold_left (fun S i => pd_set S i 0 0) (zrange 1 (m + 1)) S in
  let S := fold_left (fun S i => pd_set S i (i + 1) 0) (zrange 0 (m + 1)) S in
  do S <- foldM (fun S i =>
      foldM (fun S j =>
          do a <- pd_get S (i - 1) j; do b <- pd_get S (i - j) (j - 1);
          Ret (pd_set S i j (j * a + b))) (zrange 1 (Z.min i n + 1)) S) (zrange 1 (m + 1)) S;
  pd_get S m n.

(** Two-dimensional lists. *)
Definition get2 {A} (p : list (list A)) (k l : Z) : outcome A := do r <- pyget p k; pyget r l.
Definition set2 {A} (p : list (list A)) (k l : Z) (v : A) : outcome (list (list A)) :=
  do r <- pyget p k; do r <- pyset r l v; pyset p k r.

(** enumeration.py:155-157: add the vector (i, j). *)
Definition bip_add (m n i j : Z) (p : list (list Z)) : outcome (list (list Z)) :=
  foldM (fun p k => foldM (fun p l =>
      do a <- get2 p k l; do b <- get2 p (k - i) (l - j); set2 p k l (a + b))
    (zrange j (n + 1)) p) (zrange i (m + 1)) p.

(** enumeration.py:126-159, [bipartitions]. *)
Definition bipartitions (m n : Z) : outcome Z :=
  let p := map (fun _ => repeat 1 (Z.to_nat (n + 1))) (zrange 0 (m + 1)) in
  do p <- foldM (fun p i => foldM (fun p j =>
      if i + j >? 1 then bip_add m n i j p else Ret p) (zrange 0 (n + 1)) p) (zrange 0 (m + 1)) p;
  get2 p m n.
