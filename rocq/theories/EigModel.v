(** * Selection of the eigensolver (proof-free).

    Source: datafold/pcfold/eigsolver.py (eigsolver.py), datafold/pcfold/kernels.py
    (kernels.py).  Exact arithmetic; eigenpairs are real (results with imaginary parts raise
    NumericalMathError: eigsolver.py 256-263, dmap.py 73-92).  The final sorting of the pairs
    (eigsolver.py 269) is the subject of C31 and left out. *)

From mathcomp Require Import all_ssreflect all_algebra.
From Verif Require Import LinModel KernModel.
Import GRing.Theory Num.Theory.
Set Implicit Arguments.
Unset Strict Implicit.
Unset Printing Implicit Defensive.
Local Open Scope ring_scope.

(** kernels.py 393-435: what a kernel declares: [_is_symmetric_kernel], [is_stochastic] and
    [distance.is_symmetric]. *)
Record flags := Flags { kernel_symmetric : bool; stochastic : bool; dist_symmetric : bool }.

(** kernels.py 428-435 [is_symmetric]. *)
Definition is_symmetric (f : flags) : bool := dist_symmetric f && kernel_symmetric f.

(** The scipy functions. *)
Inductive solver := Eigh | Eig | Eigsh | Eigs.

(** eigsolver.py 75-92; [n] columns, [k] eigenpairs. *)
Definition choose (f : flags) (n k : nat) : solver :=
  if k == n then (if kernel_symmetric f then Eigh else Eig)
  else (if is_symmetric f then Eigsh else Eigs).

(** eigsolver.py 98-108: whether the shift-invert mode around 1.1 is used. *)
Definition shift_invert (f : flags) (n k : nat) : bool :=
  (k != n) && is_symmetric f && stochastic f.

Section Model.
Variable R : rcfType.

(** The four scipy functions: eigenvalues and eigenvectors, or an exception. *)
Definition backend := solver -> forall k n : nat, 'M[R]_n -> option ('rV[R]_k * 'M[R]_(n, k)).

(** general.py 473-493 [is_symmetric_matrix]. *)
Definition is_symmetric_matrix n (A : 'M[R]_n) : bool := [forall i, forall j, A i j == A j i].

(** eigsolver.py 181-271 [compute_kernel_eigenpairs], without the sorting. *)
Definition compute_kernel_eigenpairs (B : backend) (f : flags) n (A : 'M[R]_n) (k : nat)
  (normalize validate : bool) : option ('rV[R]_k * 'M[R]_(n, k)) :=
  if validate && is_symmetric f && ~~ is_symmetric_matrix A then None
  else
    match B (choose f n k) k n A with
    | None => None
    | Some (e, V) =>
        Some (e, if normalize then mat_dot_diagmat V (reciprocal (col_norm V)) else V)
    end.

(** kernels.py 1514-1530: what a DmapKernelFixed declares. *)
Definition dmap_flags (c : dmap_cfg R) : flags :=
  Flags (symmetrize_kernel c || ~~ is_stochastic c) (is_stochastic c) (distance_symmetric c).

End Model.
