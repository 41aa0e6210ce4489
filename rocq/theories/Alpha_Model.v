(** * Model of rosemary/combinatorics/recreational/alphametics.py
    Letters are integers; a word is a list of letters.  [cord] is the iteration order of the set of
    characters and [dord] that of a set of digits. *)
From Coq Require Import ZArith List Bool.
From Verif Require Import Base Py Dict Trav_Model Kor_Model Graph_Model.
Import ListNotations.
Open Scope Z_scope.

(** alphametics.py:2-3, [word_to_num]: the template of a word (5-6) has one field for each letter;
    the template of the empty word is '{}', which asks for a positional argument. *)
Definition word_to_num (m : list (Z * Z)) (w : list Z) : outcome Z :=
  match w with
  | [] => Raise IndexError
  | _ => foldM (fun a c => do d <- dgetM m c; Ret (10 * a + d)) w 0
  end.

(** alphametics.py:10-14, the sets [characters] and [first_chars]. *)
Definition collect (words : list (list Z)) : outcome (list Z * list Z) :=
  foldM (fun '(cs, fs) w => match w with
                            | [] => Raise IndexError
                            | c :: _ => Ret (fold_left set_add w cs, set_add fs c)
                            end) words ([], []).

(** alphametics.py:24-32, the dictionary [signature]; [sig_map] is restored after each character. *)
Definition signatures (lhs rhs : list (list Z)) (chars : list Z) : outcome (list (Z * Z)) :=
  do '(sg, _) <- foldM (fun '(sg, sm) c =>
      let sm := dset sm c 1 in
      do l <- mapM (word_to_num sm) lhs;
      do r <- mapM (word_to_num sm) rhs;
      Ret (dset sg c (zsum l - zsum r), dset sm c 0)) chars ([], map (fun c => (c, 0)) chars);
  Ret sg.

(** alphametics.py:48-50, the loop; the state is (valuation[char], sig). *)
Definition val_step (s : Z * Z) : (Z * Z) + outcome Z :=
  let '(v, sig) := s in
  if negb (sig =? 0) && (sig mod 10 =? 0) then inl (v * 10, sig / 10) else inr (Ret v).

(** alphametics.py:45-50, the dictionary [valuation]. *)
Definition valuations (sg : list (Z * Z)) : outcome (list (Z * Z)) :=
  foldM (fun vl '(c, sig) => do v <- run val_step (bits (Z.abs sig)) (1, sig); Ret (dset vl c v)) sg [].

(** alphametics.py:77-88, the flag [can_extend]; [rest] is char_list[idx + 1:]. *)
Definition can_extend (vl : list (Z * Z)) (c : Z) (rest : list Z) (total : Z) : outcome bool :=
  match rest with
  | [] => Ret true
  | c' :: _ =>
      do v' <- dgetM vl c';
      do v <- dgetM vl c;
      if v' =? v then Ret true else do r <- pymod total v'; Ret (r =? 0)
  end.

Section Search.
  Variable dord : list Z -> list Z.
  Variables (lhs rhs : list (list Z)) (fs : list Z) (sg vl : list (Z * Z)).

  (** alphametics.py:56-95, the generator [backtrack]; [rest] is char_list[idx:].  The result is the list
      of what is yielded, and the dictionary [mapping] afterwards. *)
  Fixpoint backtrack (rest : list Z) (total : Z) (unused : list Z) (mp : list (Z * Z))
    : outcome (list (list Z * list Z) * list (Z * Z)) :=
    match rest with
    | [] =>
        if total =? 0 then
          do l <- mapM (word_to_num mp) lhs;
          do r <- mapM (word_to_num mp) rhs;
          Ret ([(l, r)], mp)
        else Ret ([], mp)
    | c :: rest' =>
        do '(acc, mp) <- foldM (fun '(acc, mp) digit =>
            if (digit =? 0) && mem c fs then Ret (acc, mp)
            else
              let mp := dset mp c digit in
              do s <- dgetM sg c;
              let new_total := total + digit * s in
              do ok <- can_extend vl c rest' new_total;
              if ok : bool then
                do '(sols, mp) <- backtrack rest' new_total (filter (fun d => negb (d =? digit)) unused) mp;
                Ret (acc ++ sols, mp)
              else Ret (acc, mp)) (dord unused) ([], mp);
        Ret (acc, if dmem mp c then ddel mp c else mp)
    end.
End Search.

(** alphametics.py:1-99, all the values of the generator returned by [solve]. *)
Definition solve (cord dord : list Z -> list Z) (lhs rhs : list (list Z)) : outcome (list (list Z * list Z)) :=
  do '(cs, fs) <- collect (lhs ++ rhs);
  do sg <- signatures lhs rhs (cord cs);
  do vl <- valuations sg;
  let key c := match dget vl c with Some v => v | None => 0 end in
  let char_list := sort_by key (cord cs) in
  do '(sols, _) <- backtrack dord lhs rhs fs sg vl char_list 0 (zrange 0 10) [];
  Ret sols.
