(** * C95: Latin squares by exact cover *)
From Coq Require Import ZArith List Lia Sorting.Permutation.
From Verif Require Import Base Count Gen Cover_Model Latin_Spec Latin_Model Latin_Proofs2 Latin_Proofs3.
Import ListNotations.
Open Scope Z_scope.

(** C95: the number of exact covers of latin_square_ints(n) is the number of Latin squares of order n. *)
Theorem C95_latin_count n : 0 <= n -> exists c, ec_number_of_solutions (latin_square_ints n) = Ret c /\ number_of (latin_square n) c.
Proof.
  intros H. destruct (Z.eq_dec n 0) as [->|Hne]; [|apply latin_count; lia].
  exists 1. split; [reflexivity|]. apply (number_of_one _ []). exact latin_zero.
Qed.
Print Assumptions C95_latin_count.

(** C95: solutions() yields the integers of each Latin square of order n, each square once. *)
Theorem C95_latin_solutions n : 0 <= n -> exists L, NoDup L /\ (forall s, In s L <-> latin_square n s) /\
  yields (ec_solutions (latin_square_ints n)) (map (square_codes n) L).
Proof.
  intros H. destruct (Z.eq_dec n 0) as [->|Hne].
  - exists [[]]. split; [repeat constructor; intros []|]. split.
    + intros s. rewrite latin_zero. cbn [In]. split; [intros [<-|[]]; reflexivity|intros ->; left; reflexivity].
    + exists 2%nat. intros [|[|f]]; try reflexivity; intros; lia.
  - destruct (latin_solutions_ok n ltac:(lia)) as (L & N & HL & Y). exists L. split; [exact N|]. split; [exact HL|].
    rewrite (map_ext_in (square_codes n) (fun s => map (fun k => nth k (latin_square_ints n) 0) (lcoverof n s))); [exact Y|].
    intros s Hs. symmetry. apply lcoverof_codes; [lia|apply HL, Hs].
Qed.
Print Assumptions C95_latin_solutions.

Example C95_ex : ec_number_of_solutions (latin_square_ints 3) = Ret 12 /\ latin_square 3 [[0; 1; 2]; [2; 0; 1]; [1; 2; 0]].
Proof.
  split; [vm_compute; reflexivity|]. assert (P : forall a b c, (a, b, c) = (0, 1, 2) \/ (a, b, c) = (2, 0, 1) \/ (a, b, c) = (1, 2, 0) \/
      (a, b, c) = (0, 2, 1) \/ (a, b, c) = (1, 0, 2) \/ (a, b, c) = (2, 1, 0) -> Permutation [a; b; c] (zrange 0 3)).
  { intros a b c H. change (zrange 0 3) with [0; 1; 2]. apply NoDup_Permutation_bis; [|cbn; lia|];
      repeat destruct H as [H|H]; injection H as -> -> ->; try (repeat constructor; cbn [In]; lia); intros x Hx; cbn [In] in *; tauto. }
  split; [reflexivity|]. split; [repeat constructor; apply P; auto|].
  intros j Hj. assert (E : j = 0 \/ j = 1 \/ j = 2) by lia. destruct E as [-> | [-> | ->]]; cbn; apply P; tauto.
Qed.
Example C95_ex2 : square_codes 2 [[0; 1]; [1; 0]] = [545; 1042; 324; 2184] /\ In (square_codes 2 [[0; 1]; [1; 0]]) (fst (ec_solutions (latin_square_ints 2) 20)).
Proof. split; vm_compute; auto. Qed.
