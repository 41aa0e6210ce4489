(** * Model of the matrices and the density of a graph in rosemary/graphs/graphs.py *)
From Coq Require Import ZArith QArith List Bool.
From Verif Require Import Base Py Lists Dict Graph_Model Double_Model Mat_Model.
Import ListNotations.
Open Scope Z_scope.

(** [enumerate(l)] *)
Definition enumerate (l : list Z) : list (Z * Z) := combine (zrange 0 (Z.of_nat (length l))) l.

(** graphs.py:836-875, [adjacency_matrix]; [MatrixZZ(0)] raises IndexError (matrices.py:33-43). *)
Definition adjacency_matrix (g : graph) : outcome matrix :=
  let vs := vertices g in
  let n := Z.of_nat (length vs) in
  do mat <- new_matrix (zero_matrix n n);
  foldM (fun mat '(i, u) => foldM (fun mat '(j, v) => do a <- g_adj g u; if dmem a v then mset mat i j 1 else Ret mat) (enumerate vs) mat)
    (enumerate vs) mat.

(** graphs.py:877-907, [degree_matrix]. *)
Definition degree_matrix (g : graph) : outcome matrix :=
  let vs := vertices g in
  let n := Z.of_nat (length vs) in
  do mat <- new_matrix (zero_matrix n n);
  foldM (fun mat '(i, v) => do a <- g_adj g v; mset mat i i (Z.of_nat (length a))) (enumerate vs) mat.

(** graphs.py:909-939, [laplacian_matrix]. *)
Definition laplacian_matrix (g : graph) : outcome matrix :=
  do degree_mat <- degree_matrix g;
  do adjacency_mat <- adjacency_matrix g;
  m_sub degree_mat adjacency_mat.

(** graphs.py:398-424, [density]: n*(n - 1) and the number of edges become floats, and both divisions round. *)
Definition density (g : graph) : outcome Q :=
  let n := Z.of_nat (length g) in
  do p <- flt (n * (n - 1));
  let total_possible := fl (p / 2) in
  do m <- flt (num_edges g);
  if Qeq_bool total_possible 0 then Raise ZeroDivisionError else Ret (fl (m / total_possible)).
