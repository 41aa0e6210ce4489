(** * Model of number_theory/primes/prime_counting.py *)
From Coq Require Import ZArith List Bool.
From Verif Require Import Base Py Dict Core_Model Sieves_Model PrimeList_Data Lists Bit_Model Pell_Model.
Import ListNotations.
Open Scope Z_scope.

(** The dict [cache] of the local functions [phi], keyed by pairs. *)
Definition cache := list (Z * Z * Z).
Fixpoint cache_get (c : cache) (x a : Z) : option Z :=
  match c with
  | [] => None
  | (x', a', v) :: c => if (x' =? x) && (a' =? a) then Some v else cache_get c x a
  end.

(** The loops of the functions [phi]: prime_counting.py:54-58, 132-135, 212-215 and 387-391.  [js] are the positions of the
    primes in the list: lines 54 and 387 count from one, and j = i - 1.  [w] is 1 except in line 391. *)
Fixpoint phi_loop (rec : Z -> Z -> cache -> outcome (Z * cache)) (w : Z -> Z) (primes : list Z) (x : Z) (js : list Z) (value : Z) (c : cache) : outcome (Z * cache) :=
  match js with
  | [] => Ret (value, c)
  | j :: js =>
      do p <- pyget primes j;
      if x <? p then Ret (value, c)
      else
        do '(v, c) <- rec (x / p) j c;
        phi_loop rec w primes x js (value - w p * v) c
  end.

(** prime_counting.py:46-61.  The fuel bounds the depth of the recursion, which Python bounds by its recursion limit. *)
Fixpoint legendre_phi (fuel : nat) (primes : list Z) (x a : Z) (c : cache) : outcome (Z * cache) :=
  match fuel with
  | O => Diverge
  | S fuel =>
      match cache_get c x a with
      | Some v => Ret (v, c)
      | None =>
          if a =? 1 then Ret ((x + 1) / 2, c)
          else
            do '(value, c) <- phi_loop (legendre_phi fuel primes) (fun _ => 1) primes x (zrange 1 a) ((x + 1) / 2) c;
            Ret (value, (x, a, value) :: c)
      end
  end.

(** prime_counting.py:15-63. *)
Definition legendre (n : Z) : outcome Z :=
  if n <=? 1 then Ret 0
  else if n <=? last PRIME_LIST 0 then Ret (Z.of_nat (bisect PRIME_LIST n))
  else
    do root <- integer_sqrt n;
    do primes <- primes root;
    let a := Z.of_nat (length primes) in
    do '(v, _) <- legendre_phi (S (length primes)) primes n a [];
    Ret (v + a - 1).

(** prime_counting.py:377-394. *)
Fixpoint sum_phi (fuel : nat) (primes : list Z) (x a : Z) (c : cache) : outcome (Z * cache) :=
  match fuel with
  | O => Diverge
  | S fuel =>
      match cache_get c x a with
      | Some v => Ret (v, c)
      | None =>
          if x =? 0 then Ret (0, c)
          else if a =? 0 then Ret (x * (x + 1) / 2, c)
          else
            do '(value, c) <- phi_loop (sum_phi fuel primes) (fun p => p) primes x (zrange 0 a) (x * (x + 1) / 2) c;
            Ret (value, (x, a, value) :: c)
      end
  end.

(** prime_counting.py:360-396.  The table [sum_table] of lines 365-375 is never read and not modelled. *)
Definition prime_sum2 (n : Z) : outcome Z :=
  do root <- integer_sqrt n;
  do primes <- primes root;
  let a := Z.of_nat (length primes) in
  do '(v, _) <- sum_phi (S (length primes)) primes n a [];
  Ret (v + zsum primes - 1).

(** prime_counting.py:400-402 and 459-461: the values n//i in decreasing order. *)
Definition quotients (n r : Z) : outcome (list Z) :=
  do V <- mapM (fun i => pydiv n i) (zrange 1 (r + 1));
  do last <- pyget V (-1);
  Ret (V ++ rev (zrange 1 last)).

(** prime_counting.py:409-412 and 466-469: [k] is the factor and [sp] the subtracted value. *)
Fixpoint strike (k : Z) (p sp : Z) (V : list Z) (S : list (Z * Z)) : outcome (list (Z * Z)) :=
  match V with
  | [] => Ret S
  | v :: V =>
      if v <? p * p then Ret S
      else
        do s <- dgetM S v;
        do d <- pydiv v p;
        do t <- dgetM S d;
        strike k p sp V (dset S v (s - k * (t - sp)))
  end.

(** prime_counting.py:399-414. *)
Definition prime_sum (n : Z) : outcome Z :=
  do r <- integer_sqrt n;
  do V <- quotients n r;
  let S := fold_left (fun S i => dset S i (i * (i + 1) / 2 - 1)) V [] in
  do S <- foldM (fun S p =>
    do a <- dgetM S p;
    do b <- dgetM S (p - 1);
    if b <? a then strike p p b V S else Ret S) (zrange 2 (r + 1)) S;
  dgetM S n.

(** prime_counting.py:458-470.  The value S[p - 1] read in line 469 is not changed by the loop, whose keys are >= p*p; it is read
    once here. *)
Definition prime_count (n : Z) : outcome (list (Z * Z)) :=
  do r <- integer_sqrt n;
  do V <- quotients n r;
  let S := fold_left (fun S i => dset S i ((i + 1) / 2)) V [] in
  foldM (fun S p =>
    do a <- dgetM S p;
    do b <- dgetM S (p - 1);
    if b <? a then strike 1 p b V S else Ret S) (zrange 2 (r + 1)) S.

(** The slice assignment table[lo:hi] = vals. *)
Definition splice (table : list Z) (lo hi : Z) (vals : list Z) : list Z :=
  firstn (Z.to_nat lo) table ++ vals ++ skipn (Z.to_nat (Z.max lo hi)) table.

(** prime_counting.py:449-451: [i] is the loop variable, None before the first iteration. *)
Fixpoint pi_fill (ps : list Z) (k : Z) (table : list Z) (last : Z) (i : option Z) : list Z * Z * option Z :=
  match ps with
  | [] => (table, last, i)
  | p :: ps => pi_fill ps (k + 1) (splice table last p (repeat k (Z.to_nat (p - last)))) p (Some k)
  end.

(** prime_counting.py:422-455. *)
Definition pi_table (n : Z) : outcome (list Z * list Z) :=
  do primes <- primes n;
  let '(table, last, i) := pi_fill primes 0 (repeat 0 (Z.to_nat (n + 1))) 0 None in
  match i with
  | None => Raise UnboundLocalError
  | Some i => Ret (primes, splice table last (n + 1) (repeat (i + 1) (Z.to_nat (n + 1 - last))))
  end.

(** ** Meissel and Lehmer *)

(** prime_counting.py:87-87 and 169-169. *)
Definition closed1 : list Z := [
   1; -2].
(** prime_counting.py:90-90 and 172-172. *)
Definition closed2 : list Z := [
   1; -2; -3; 6].
(** prime_counting.py:93-93 and 175-175. *)
Definition closed3 : list Z := [
   1; -2; -3; -5; 6; 10; 15; -30].
(** prime_counting.py:96-97 and 178-179. *)
Definition closed4 : list Z := [
   1; -2; -3; -5; -7; 6; 10; 14; 15; 21; 35; -30; -42; -70; -105; 210].
(** prime_counting.py:99-101 and 181-183. *)
Definition closed5 : list Z := [
   1; -2; -3; -5; -7; -11; 6; 10; 14; 22; 15; 21; 33; 35; 55; 77; -30; -42; -66; -70; -110; -154; -105; -165; -231;
   -385; 210; 330; 462; 770; 1155; -2310].
(** prime_counting.py:103-108 and 185-190. *)
Definition closed6 : list Z := [
   1; -2; -3; -5; -7; -11; -13; 6; 10; 14; 22; 26; 15; 21; 33; 39; 35; 55; 65; 77; 91; 143; -30; -42; -66; -78; -70;
   -110; -130; -154; -182; -286; -105; -165; -195; -231; -273; -429; -385; -455; -715; -1001; 210; 330; 390; 462; 546;
   858; 770; 910; 1430; 2002; 1155; 1365; 2145; 3003; 5005; -2310; -2730; -4290; -6006; -10010; -15015; 30030].
(** prime_counting.py:110-122 and 192-204. *)
Definition closed7 : list Z := [
   1; -2; -3; -5; -7; -11; -13; -17; 6; 10; 14; 22; 26; 34; 15; 21; 33; 39; 51; 35; 55; 65; 85; 77; 91; 119; 143; 187;
   221; -30; -42; -66; -78; -102; -70; -110; -130; -170; -154; -182; -238; -286; -374; -442; -105; -165; -195; -255;
   -231; -273; -357; -429; -561; -663; -385; -455; -595; -715; -935; -1105; -1001; -1309; -1547; -2431; 210; 330; 390;
   510; 462; 546; 714; 858; 1122; 1326; 770; 910; 1190; 1430; 1870; 2210; 2002; 2618; 3094; 4862; 1155; 1365; 1785;
   2145; 2805; 3315; 3003; 3927; 4641; 7293; 5005; 6545; 7735; 12155; 17017; -2310; -2730; -3570; -4290; -5610; -6630;
   -6006; -7854; -9282; -14586; -10010; -13090; -15470; -24310; -34034; -15015; -19635; -23205; -36465; -51051; -85085;
   30030; 39270; 46410; 72930; 102102; 170170; 255255; -510510].
(** A sum of terms x//d, written as the list of the signed divisors. *)
Definition terms (l : list Z) (x : Z) : Z := zsum (map (fun d => if 0 <? d then x / d else - (x / - d)) l).
(** prime_counting.py:86-122 and 168-204. *)
Definition closed (a x : Z) : Z :=
  if a =? 1 then terms closed1 x else if a =? 2 then terms closed2 x else if a =? 3 then terms closed3 x
  else if a =? 4 then terms closed4 x else if a =? 5 then terms closed5 x else if a =? 6 then terms closed6 x else terms closed7 x.

(** prime_counting.py:140-144. *)
Definition meissel_phi2 (primes pi_cache : list Z) (n a b : Z) : outcome Z :=
  foldM (fun total i => do p <- pyget primes i; do q <- pydiv n p; do v <- pyget pi_cache q; Ret (total + v)) (zrange a b) ((a - b) * (b + a - 1) / 2).

(** prime_counting.py:78-138.  [fsqrt x] and [fcbrt x] stand for the floating-point expressions int((x + 0.5)**0.5) and
    int((x + 0.5)**(1.0/3.0)). *)
Fixpoint meissel_phi (fsqrt fcbrt : Z -> Z) (fuel : nat) (root : Z) (primes pi_cache : list Z) (x a : Z) (c : cache) : outcome (Z * cache) :=
  match fuel with
  | O => Diverge
  | S fuel =>
      match cache_get c x a with
      | Some v => Ret (v, c)
      | None =>
          do b <- pyget pi_cache (fsqrt x);
          do c3 <- pyget pi_cache (fcbrt x);
          do '(value, c) <-
            (if a <=? 7 then Ret (closed a x, c)
             else if (a <? b) && (c3 <=? a) && (x <=? root) then
               do v <- pyget pi_cache x;
               do t <- meissel_phi2 primes pi_cache x a b;
               Ret (v - a + 1 + t, c)
             else if (b <=? a) && (x <=? root) then
               do v <- pyget pi_cache x;
               Ret (v - a + 1, c)
             else phi_loop (meissel_phi fsqrt fcbrt fuel root primes pi_cache) (fun _ => 1) primes x (zrange 1 a) ((x + 1) / 2) c);
          Ret (value, (x, a, value) :: c)
      end
  end.

(** prime_counting.py:66-147. *)
Definition meissel (fsqrt fcbrt : Z -> Z) (n : Z) : outcome Z :=
  if n <=? 1 then Ret 0
  else if n <=? last PRIME_LIST 0 then Ret (Z.of_nat (bisect PRIME_LIST n))
  else
    do root <- integer_nth_root 3 (n ^ 2);
    do '(primes, pi_cache) <- pi_table root;
    do r3 <- integer_nth_root 3 n;
    do a <- pyget pi_cache r3;
    do r2 <- integer_nth_root 2 n;
    do b <- pyget pi_cache r2;
    do '(v, _) <- meissel_phi fsqrt fcbrt (S (Z.to_nat a)) root primes pi_cache n a [];
    do t <- meissel_phi2 primes pi_cache n a b;
    Ret (v - 1 + a - t).

(** prime_counting.py:163-218.  [fsqrt x] stands for the integer part of the floating-point number x**(0.5). *)
Fixpoint lehmer_phi (fsqrt : Z -> Z) (fuel : nat) (primes : list Z) (x a : Z) (c : cache) : outcome (Z * cache) :=
  match fuel with
  | O => Diverge
  | S fuel =>
      match cache_get c x a with
      | Some v => Ret (v, c)
      | None =>
          do '(value, c) <-
            (if a <=? 7 then Ret (closed a x, c)
             else if (Z.of_nat (bisect primes (fsqrt x)) <=? a) && (x <? last primes 0) then Ret (Z.of_nat (bisect primes x) - a + 1, c)
             else phi_loop (lehmer_phi fsqrt fuel primes) (fun _ => 1) primes x (zrange 1 a) ((x + 1) / 2) c);
          Ret (value, (x, a, value) :: c)
      end
  end.

(** prime_counting.py:150-236; lines 220-224 and 226-233 are the second and the third loop. *)
Definition lehmer (fsqrt : Z -> Z) (n : Z) : outcome Z :=
  if n <=? 1 then Ret 0
  else if n <=? last PRIME_LIST 0 then Ret (Z.of_nat (bisect PRIME_LIST n))
  else
    do root <- integer_nth_root 4 (n ^ 3);
    do primes <- primes root;
    do r4 <- integer_nth_root 4 n;
    do r2 <- integer_sqrt n;
    do r3 <- integer_nth_root 3 n;
    let a := Z.of_nat (bisect primes r4) in
    let b := Z.of_nat (bisect primes r2) in
    let c := Z.of_nat (bisect primes r3) in
    let phi := lehmer_phi fsqrt (S (length primes)) primes in
    do '(v, ch) <- phi n a [];
    do '(s1, ch) <- foldM (fun '(s1, ch) i =>
      do p <- pyget primes i;
      do q <- pydiv n p;
      do '(v, ch) <- phi q b ch;
      Ret (s1 + (v + b - 1), ch)) (zrange a b) (0, ch);
    do '(s2, _) <- foldM (fun '(s2, ch) i =>
      do p <- pyget primes i;
      do q <- pydiv n p;
      do s <- integer_sqrt q;
      do '(v, ch) <- phi s b ch;
      let bi := v + b - 1 in
      foldM (fun '(s2, ch) j =>
        do p' <- pyget primes j;
        do q' <- pydiv n (p * p');
        do '(v, ch) <- phi q' b ch;
        Ret (s2 + (v + b - 1 - j), ch)) (zrange i bi) (s2, ch)) (zrange a c) (0, ch);
    Ret ((b + a - 2) * (b - a + 1) / 2 + v - s1 - s2).

(** ** Lagarias, Miller and Odlyzko *)

(** prime_counting.py:266-278 and 323-335: [t] is the bound of lines 248 and 306, of which only the integer part matters. *)
Definition lmo_step (x t : Z) (primes : list Z) (st : list (Z * Z * Z) * Z * list (Z * list (Z * Z))) :
  (list (Z * Z * Z) * Z * list (Z * list (Z * Z))) + outcome (Z * list (Z * list (Z * Z))) :=
  let '(stack, value, special) := st in
  match stack with
  | [] => inr (Ret (value, special))
  | (n, a, sign) :: stack =>
      if (a =? 1) && (n <=? t) then
        match pydiv x n with
        | Ret q => inl (stack, (if 0 <? sign then value + (q + 1) / 2 else value - (q + 1) / 2), special)
        | Raise e => inr (Raise e)
        | Diverge => inr Diverge
        end
      else if t <? n then
        match pydiv x n with
        | Ret q => inl (stack, value, dset special a (match dget special a with Some l => l | None => [] end ++ [(q, sign)]))
        | Raise e => inr (Raise e)
        | Diverge => inr Diverge
        end
      else
        match pyget primes (a - 1) with
        | Ret p => inl ((n * p, a - 1, - sign) :: (n, a - 1, sign) :: stack, value, special)
        | Raise e => inr (Raise e)
        | Diverge => inr Diverge
        end
  end.
(** The fuel is enough for a tree of depth c. *)
Definition lmo_tree (x t : Z) (primes : list Z) (c value : Z) : outcome (Z * list (Z * list (Z * Z))) :=
  run (lmo_step x t primes) (Z.to_nat c + 4) ([(1, c, 1)], value, []).

(** prime_counting.py:252-256 and 311-315. *)
Definition lmo_value (x : Z) (primes : list Z) (b c : Z) : outcome Z :=
  foldM (fun value i => do p <- pyget primes i; do q <- pydiv x p; Ret (value - Z.of_nat (bisect primes q))) (zrange c b) ((b + c - 2) * (b - c + 1) / 2).

(** prime_counting.py:290-297. *)
Definition lmo_leaf (block : list Z) (st : Z * Z * Z) (leaf : Z * Z) : Z * Z * Z :=
  let '(value, last_v, last_s) := st in
  let '(v, sign) := leaf in
  let last_s := last_s + zsum (firstn (Z.to_nat (v + 1 - last_v)) (skipn (Z.to_nat last_v) block)) in
  ((if 0 <? sign then value + last_s else value - last_s), v + 1, last_s).

(** prime_counting.py:239-299. *)
Definition lmo (x : Z) : outcome Z :=
  if x <=? 1 then Ret 0
  else if x <=? last PRIME_LIST 0 then Ret (Z.of_nat (bisect PRIME_LIST x))
  else
    do root <- integer_nth_root 3 (x ^ 2);
    do primes <- primes root;
    do t <- integer_nth_root 3 x;
    let c := Z.of_nat (bisect primes t) in
    do r2 <- integer_nth_root 2 x;
    let b := Z.of_nat (bisect primes r2) in
    do value <- lmo_value x primes b c;
    do '(value, special) <- lmo_tree x t primes c value;
    do block <- pyset (repeat 1 (Z.to_nat (root + 1))) 0 0;
    do '(value, _) <- foldM (fun '(value, block) a =>
      do p <- pyget primes (a - 1);
      do n <- pydiv root p;
      do block <- slice_fill p p n 0 block;
      do leaves <- dgetM special a;
      Ret (fst (fst (fold_left (lmo_leaf block) (pair_sort leaves) (value, 0, 0))), block)) (zsort (dkeys special)) (value, block);
    Ret value.

(** prime_counting.py:302-352.  [root], [t] and [s] are the integer parts of the floating-point numbers x**(2.0/3.0),
    x**(0.33333333333333) and x**(0.5). *)
Definition lmo_bit (root t s x : Z) : outcome Z :=
  do primes <- primes root;
  let c := Z.of_nat (bisect primes t) in
  let b := Z.of_nat (bisect primes s) in
  do value <- lmo_value x primes b c;
  do '(value, special) <- lmo_tree x t primes c value;
  do block <- bita_init root;
  do '(value, _) <- foldM (fun '(value, block) a =>
    do p <- pyget primes (a - 1);
    do block <- bita_mark block p;
    do leaves <- dgetM special a;
    do value <- foldM (fun value '(v, sign) =>
      do s <- bita_partial_sum block v;
      Ret (if 0 <? sign then value + s else value - s)) (pair_sort leaves) value;
    Ret (value, block)) (zsort (dkeys special)) (value, block);
  Ret value.
