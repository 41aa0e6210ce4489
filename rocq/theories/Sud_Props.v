(** * C88: the sudoku solver returns a completion exactly when there is one *)
From Coq Require Import ZArith List Bool Lia Permutation.
From Verif Require Import Base AlgX_Model AlgX_Spec AlgX_Props Sud_Spec Sud_Model Sud_Proofs Sud_Proofs3.
Import ListNotations.
Open Scope Z_scope.

(** For every string of at most 81 digits and all iteration orders of the sets: the solver returns a filled grid
    that keeps the given digits, or it raises StopIteration and there is no such grid. *)
Theorem C88_solve : forall eord tord ord a,
  (forall l, Permutation (eord l) l) -> (forall l, Permutation (tord l) l) -> (forall p s, Permutation (ord p s) s) ->
  (length a <= 81)%nat -> (forall d, In d a -> 0 <= d <= 9) ->
  (exists s, sudoku_dlx eord tord ord a = Ret s /\ completion a s) \/
  (sudoku_dlx eord tord ord a = Raise StopIteration /\ forall s, ~ completion a s).
Proof.
  intros eord tord ord a He Ht Ho La Da. apply solve_ok; try assumption. intros sets target. apply C43_algorithmx, Ho.
Qed.
Print Assumptions C88_solve.

(** A puzzle with one completion is answered with that completion. *)
Theorem C88_unique : forall eord tord ord a s,
  (forall l, Permutation (eord l) l) -> (forall l, Permutation (tord l) l) -> (forall p s, Permutation (ord p s) s) ->
  (length a <= 81)%nat -> (forall d, In d a -> 0 <= d <= 9) ->
  completion a s -> (forall s', completion a s' -> s' = s) -> sudoku_dlx eord tord ord a = Ret s.
Proof.
  intros eord tord ord a s He Ht Ho La Da C U. destruct (C88_solve eord tord ord a He Ht Ho La Da) as [(s' & E & C')|(_ & N)]; [|destruct (N s C)].
  rewrite E, (U s' C'). reflexivity.
Qed.
Print Assumptions C88_unique.

(** A longer string is rejected. *)
Theorem C88_too_long : forall eord tord ord a, (length a > 81)%nat -> sudoku_dlx eord tord ord a = Raise IndexError.
Proof. intros eord tord ord a L. unfold sudoku_dlx. rewrite (parse_long a L). reflexivity. Qed.
Print Assumptions C88_too_long.

(** A grid with four empty cells, and the same one with a wrong digit. *)
Definition grid_full : list Z :=
  [5;3;4;6;7;8;9;1;2; 6;7;2;1;9;5;3;4;8; 1;9;8;3;4;2;5;6;7; 8;5;9;7;6;1;4;2;3; 4;2;6;8;5;3;7;9;1; 7;1;3;9;2;4;8;5;6; 9;6;1;5;3;7;2;8;4; 2;8;7;4;1;9;6;3;5; 3;4;5;2;8;6;1;7;9].
Definition grid_open : list Z := [0;0] ++ firstn 7 (skipn 2 grid_full) ++ [0;0] ++ skipn 11 grid_full.
Definition same (l : list Z) : list Z := l.
Definition same2 (p l : list Z) : list Z := l.

Example C88_example_hyps : (length grid_open <= 81)%nat /\ (forall d, In d grid_open -> 0 <= d <= 9).
Proof. split; [vm_compute; lia|]. apply Forall_forall. vm_compute. repeat constructor; discriminate. Qed.

(** It has a completion, so it is solved. *)
Example C88_example : completion grid_open grid_full /\ exists s, sudoku_dlx same same same2 grid_open = Ret s.
Proof.
  assert (C : completion grid_open grid_full).
  { assert (Q : forall P : Z -> bool, forallb P (zrange 0 81) = true -> forall i, 0 <= i < 81 -> P i = true) by (intros P H i Hi; rewrite forallb_forall in H; apply H, zrange_In, Hi).
    split; [reflexivity|]. split; [|split].
    - intros i Hi. pose proof (Q (fun i => (1 <=? digit grid_full i) && (digit grid_full i <=? 9)) eq_refl i Hi) as K. cbv beta in K. apply andb_true_iff in K. destruct K as (K1 & K2). apply Z.leb_le in K1, K2. auto.
    - intros i Hi N. pose proof (Q (fun i => (digit grid_open i =? 0) || (digit grid_full i =? digit grid_open i)) eq_refl i Hi) as K. cbv beta in K. apply orb_true_iff in K. destruct K as [K|K]; apply Z.eqb_eq in K; [contradiction|exact K].
    - intros i j Hi Hj (N & P) E.
      assert (K : forallb (fun i => forallb (fun j => (i =? j) || negb ((i / 9 =? j / 9) || (i mod 9 =? j mod 9) || ((i / 27 =? j / 27) && ((i mod 9) / 3 =? (j mod 9) / 3))) || negb (digit grid_full i =? digit grid_full j)) (zrange 0 81)) (zrange 0 81) = true) by (vm_compute; reflexivity).
      rewrite forallb_forall in K. specialize (K i (proj2 (zrange_In _ _ _) Hi)). rewrite forallb_forall in K. specialize (K j (proj2 (zrange_In _ _ _) Hj)).
      rewrite (proj2 (Z.eqb_neq i j) N), E, Z.eqb_refl in K. cbn [orb negb] in K. rewrite orb_false_r in K. apply negb_true_iff in K. apply orb_false_iff in K. destruct K as (K1 & K3). apply orb_false_iff in K1. destruct K1 as (K1 & K2).
      apply Z.eqb_neq in K1, K2. destruct P as [P|[P|(P1 & P2)]]; [auto|auto|]. rewrite P1, P2, !Z.eqb_refl in K3. discriminate. }
  split; [exact C|]. destruct (C88_solve same same same2 grid_open) as [(s & E & _)|(_ & N)]; try (intros; apply Permutation_refl); try apply C88_example_hyps.
  - exists s. exact E.
  - destruct (N _ C).
Qed.

(** Two equal digits in the first row: there is no completion, so StopIteration is raised. *)
Example C88_example_none : sudoku_dlx same same same2 [7; 0; 7] = Raise StopIteration.
Proof.
  destruct (C88_solve same same same2 [7; 0; 7]) as [(s & E & C)|(E & _)]; try (intros; apply Permutation_refl).
  - cbn; lia.
  - intros d [<-|[<-|[<-|[]]]]; lia.
  - exfalso. destruct C as (_ & _ & K & P). apply (P 0 2); try lia; [split; [lia|left; reflexivity]|]. rewrite (K 0), (K 2); try lia; vm_compute; (reflexivity || discriminate).
  - exact E.
Qed.
