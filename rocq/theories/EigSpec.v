(** * Specification for C48. *)

From mathcomp Require Import all_ssreflect all_algebra.
From Verif Require Import KernSpec EigModel.
Import GRing.Theory.
Set Implicit Arguments.
Unset Strict Implicit.
Unset Printing Implicit Defensive.
Local Open Scope ring_scope.

Section Spec.
Variable R : rcfType.

(** The symmetric matrix with the same lower triangle. *)
Definition from_lower n (A : 'M[R]_n) : 'M[R]_n := \matrix_(i, j) (if (j <= i)%N then A i j else A j i).

(** What is assumed about scipy, if it returns: [eigh] reads the lower triangle only and
    returns an orthonormal basis of eigenvectors of the symmetric matrix it belongs to; [eigsh]
    returns eigenpairs of symmetric matrices; [eig] and [eigs] of all matrices. *)
Definition ScipySolvers (B : backend R) : Prop :=
  (forall n (A : 'M[R]_n) e V, B Eigh n n A = Some (e, V) ->
     EigenPairs (from_lower A) e V /\ V^T *m V = 1%:M) /\
  (forall k n (A : 'M[R]_n) e V, B Eigsh k n A = Some (e, V) -> Symmetric A -> EigenPairs A e V) /\
  (forall k n (A : 'M[R]_n) e V, B Eig k n A = Some (e, V) -> EigenPairs A e V) /\
  (forall k n (A : 'M[R]_n) e V, B Eigs k n A = Some (e, V) -> EigenPairs A e V).

(** Solvers for symmetric matrices. *)
Definition symmetric_solver (s : solver) : Prop := s = Eigh \/ s = Eigsh.

End Spec.
