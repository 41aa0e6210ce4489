(** * Model of rosemary/data_structures/unionfind.py and of utilities.py *)
From Coq Require Import ZArith List Bool.
From Verif Require Import Base Dict.
Import ListNotations.
Open Scope Z_scope.

(** ** UnionFind (unionfind.py:53-134).  Elements are integers. *)
Record uf := UF { uparent : list (Z * Z); urank : list (Z * Z) }.

(** unionfind.py:66-85, [__init__]. *)
Definition uf_init (elements : list Z) : uf :=
  UF (fold_left (fun d u => dset d u u) elements []) (fold_left (fun d u => dset d u 0) elements []).

(** unionfind.py:103-105: follow the parent pointers.  The fuel of [uf_find]
    (one more than the number of elements) covers every acyclic structure. *)
Fixpoint uf_climb (fuel : nat) (p : list (Z * Z)) (x : Z) (path : list Z) : outcome (Z * list Z) :=
  match fuel with
  | O => Diverge
  | S f => do px <- dgetM p x;
           if x =? px then Ret (x, path) else uf_climb f p px (path ++ [x])
  end.

(** unionfind.py:87-112, [find] with path compression. *)
Definition uf_find (s : uf) (x : Z) : outcome (Z * uf) :=
  do '(r, path) <- uf_climb (S (length (uparent s))) (uparent s) x [];
  Ret (r, UF (fold_left (fun d v => dset d v r) path (uparent s)) (urank s)).

(** unionfind.py:114-134, [union].  The exchange of x and y on line 129 has no
    effect since only px and py are used afterwards. *)
Definition uf_union (s : uf) (x y : Z) : outcome uf :=
  do px <- dgetM (uparent s) x;
  do py <- dgetM (uparent s) y;
  do rx <- dgetM (urank s) px;
  do ry <- dgetM (urank s) py;
  let rank := if rx =? ry then dset (urank s) py (ry + 1) else urank s in
  Ret (UF (dset (uparent s) px py) rank).

Inductive uop := UFind (x : Z) | UUnion (x y : Z).

(** A history; the answers to the finds are collected. *)
Fixpoint uf_run (s : uf) (ops : list uop) : outcome (list Z * uf) :=
  match ops with
  | [] => Ret ([], s)
  | UFind x :: ops' => do '(r, s) <- uf_find s x;
                       do '(rs, s) <- uf_run s ops'; Ret (r :: rs, s)
  | UUnion x y :: ops' => do s <- uf_union s x y; uf_run s ops'
  end.

(** ** NamedUnionFind (unionfind.py:1-50) *)
Record nuf := NUF { ncount : list (Z * Z); nname : list (Z * Z);
                    nfather : list (Z * option Z); nroot : list (Z * Z) }.

(** unionfind.py:2-20, [__init__]. *)
Definition nuf_init (nodes : list Z) : nuf :=
  NUF (fold_left (fun d u => dset d u 1) nodes []) (fold_left (fun d u => dset d u u) nodes [])
      (fold_left (fun d u => dset d u None) nodes []) (fold_left (fun d u => dset d u u) nodes []).

(** unionfind.py:30-32. *)
Fixpoint nuf_climb (fuel : nat) (p : list (Z * option Z)) (u : Z) (path : list Z) : outcome (Z * list Z) :=
  match fuel with
  | O => Diverge
  | S f => do fu <- dgetM p u;
           match fu with None => Ret (u, path) | Some v => nuf_climb f p v (path ++ [u]) end
  end.

(** unionfind.py:22-37, [find]. *)
Definition nuf_find (s : nuf) (u : Z) : outcome (Z * nuf) :=
  do '(r, path) <- nuf_climb (S (length (nfather s))) (nfather s) u [];
  do nm <- dgetM (nname s) r;
  Ret (nm, NUF (ncount s) (nname s) (fold_left (fun d v => dset d v (Some r)) path (nfather s)) (nroot s)).

(** unionfind.py:39-50, [union]. *)
Definition nuf_union (s : nuf) (u v w : Z) : outcome nuf :=
  do ru <- dgetM (nroot s) u;
  do cu <- dgetM (ncount s) ru;
  do rv <- dgetM (nroot s) v;
  do cv <- dgetM (ncount s) rv;
  let '(u, v) := if cu >? cv then (v, u) else (u, v) in
  do large <- dgetM (nroot s) v;
  do small <- dgetM (nroot s) u;
  let father := dset (nfather s) small (Some large) in
  do cl <- dgetM (ncount s) large;
  do cs <- dgetM (ncount s) small;
  Ret (NUF (dset (ncount s) large (cl + cs)) (dset (nname s) large w) father (dset (nroot s) w large)).

Inductive nop := NFind (x : Z) | NUnion (u v w : Z).

Fixpoint nuf_run (s : nuf) (ops : list nop) : outcome (list Z * nuf) :=
  match ops with
  | [] => Ret ([], s)
  | NFind x :: ops' => do '(r, s) <- nuf_find s x;
                       do '(rs, s) <- nuf_run s ops'; Ret (r :: rs, s)
  | NUnion u v w :: ops' => do s <- nuf_union s u v w; nuf_run s ops'
  end.

(** ** utilities.py:12-20, [cached_function] *)
Section Cached.
  Context {A B : Type} (eqb : A -> A -> bool) (func : A -> outcome B).

  Fixpoint lookup (cache : list (A * B)) (a : A) : option B :=
    match cache with
    | [] => None
    | (a', b) :: c => if eqb a' a then Some b else lookup c a
    end.

  (** utilities.py:16-19, [wrap]: the new cache is returned with the value;
      [calls] counts the calls of [func] made so far, by argument tuple.  An
      exception leaves the cache as it was. *)
  Definition wrap (cache : list (A * B)) (args : A) : outcome B * list (A * B) * list A :=
    match lookup cache args with
    | Some b => (Ret b, cache, [])
    | None => match func args with
              | Ret b => (Ret b, (args, b) :: cache, [args])
              | Raise e => (Raise e, cache, [args])
              | Diverge => (Diverge, cache, [args])
              end
    end.

  (** A sequence of calls of the wrapped function: the answers and the
      arguments on which [func] itself was called. *)
  Fixpoint wrap_run (cache : list (A * B)) (calls : list A) : list (outcome B) * list A :=
    match calls with
    | [] => ([], [])
    | a :: rest => let '(r, cache, used) := wrap cache a in
                   let '(rs, used') := wrap_run cache rest in (r :: rs, used ++ used')
    end.
End Cached.
