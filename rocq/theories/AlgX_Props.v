(** * Property C43: Algorithm X *)
From Coq Require Import ZArith List Bool Lia Permutation.
From Verif Require Import Base Dict AlgX_Model AlgX_Spec AlgX_Proofs AlgX_Proofs2.
Import ListNotations.
Open Scope Z_scope.

(** Each exact cover is yielded exactly once, whatever the iteration orders of the sets; afterwards the table of
    columns holds the same rows as before. *)
Theorem C43_algorithmx : forall sets ord target,
  (forall p s, Permutation (ord p s) s) -> (forall s, In s sets -> NoDup s /\ incl s target) ->
  exists L, algorithmx sets ord target = Ret (map (map (set_at sets)) L) /\ each_once (cover_of sets target) L.
Proof.
  intros sets ord target Hord Hs. destruct (algorithmx_ok sets ord Hord (fun s H => proj1 (Hs s H)) target (fun s H => proj2 (Hs s H))) as (L & X & X' & E & O & _).
  exists L. split; [|exact O]. unfold algorithmx. rewrite E. reflexivity.
Qed.
Print Assumptions C43_algorithmx.

Theorem C43_restored : forall sets ord target,
  (forall p s, Permutation (ord p s) s) -> (forall s, In s sets -> NoDup s /\ incl s target) ->
  exists out X X', algorithmx_full sets ord target = Ret (out, (X, X')) /\ Permutation (dkeys X) (dkeys X') /\
    forall k s, dget X k = Some s -> exists s', dget X' k = Some s' /\ Permutation s s'.
Proof.
  intros sets ord target Hord Hs. destruct (algorithmx_ok sets ord Hord (fun s H => proj1 (Hs s H)) target (fun s H => proj2 (Hs s H))) as (L & X & X' & E & _ & P).
  exists (map (map (set_at sets)) L), X, X'. split; [exact E|exact P].
Qed.
Print Assumptions C43_restored.

(** A set with an element outside the target is an error. *)
Theorem C43_key_error : forall sets ord target s, In s sets -> ~ incl s target -> algorithmx sets ord target = Raise KeyError.
Proof. intros sets ord target s Is Ns. unfold algorithmx, algorithmx_full. rewrite (build_raise sets target s Is Ns). reflexivity. Qed.
Print Assumptions C43_key_error.

(** Knuth's example, and one with several covers. *)
Example C43_ex : algorithmx [[3; 5; 6]; [1; 4; 7]; [2; 3; 6]; [1; 4]; [2; 7]; [4; 5; 7]] (fun _ s => rev s) [1; 2; 3; 4; 5; 6; 7] = Ret [[[1; 4]; [3; 5; 6]; [2; 7]]].
Proof. vm_compute. reflexivity. Qed.

Example C43_ex2 : algorithmx [[1]; [2]; [1; 2]; []; [2; 1]] (fun _ s => s) [1; 2] = Ret [[[1]; [2]]; [[1; 2]]; [[2; 1]]].
Proof. vm_compute. reflexivity. Qed.
