(** * Specification for C39, C40, C41. *)

From mathcomp Require Import all_ssreflect all_algebra.
From Verif Require Import KernSpec.
Import GRing.Theory.
Set Implicit Arguments.
Unset Strict Implicit.
Unset Printing Implicit Defensive.
Local Open Scope ring_scope.

Section Spec.
Variable R : rcfType.

(** Singular triplets of [M]: what every (truncated) singular value decomposition returns. *)
Definition SingularTriplets n l k (M : 'M[R]_(n, l)) (U : 'M[R]_(n, k)) (s : 'rV[R]_k) (V : 'M[R]_(l, k)) : Prop :=
  M *m V = U *m diag_mx s /\ M^T *m U = V *m diag_mx s /\
  U^T *m U = 1%:M /\ V^T *m V = 1%:M /\ forall j, 0 <= s 0 j.

(** What is assumed about the solvers: if they return, they return singular triplets. *)
Definition SvdSolver k (svd : forall n l : nat, 'M[R]_(n, l) -> option ('M[R]_(n, k) * 'rV[R]_k * 'M[R]_(l, k))) : Prop :=
  forall n l (M : 'M[R]_(n, l)) U s V, svd n l M = Some (U, s, V) -> SingularTriplets M U s V.

(** The economic singular value decomposition. *)
Definition FullSvd (svd : forall p1 p2 : nat, 'M[R]_(p1, p2) ->
    option ('M[R]_(p1, minn p1 p2) * 'rV[R]_(minn p1 p2) * 'M[R]_(p2, minn p1 p2))) : Prop :=
  forall p1 p2 (M : 'M[R]_(p1, p2)) U s V, svd p1 p2 M = Some (U, s, V) -> SingularTriplets M U s V.

(** Orthonormal columns. *)
Definition Orthonormal n k (V : 'M[R]_(n, k)) : Prop :=
  forall i j, \sum_l V l i * V l j = (i == j)%:R.

(** A solver that returns orthonormal eigenvectors for symmetric matrices. *)
Definition OrthonormalSolver k (eig : forall n : nat, 'M[R]_n -> option ('rV[R]_k * 'M[R]_(n, k))) : Prop :=
  forall n (A : 'M[R]_n) e V, eig n A = Some (e, V) -> Symmetric A -> Orthonormal V.

(** [Y] is the orthogonal projection of [y] on the span of the columns of [V]. *)
Definition Projection n k p (V : 'M[R]_(n, k)) (y Y : 'M[R]_(n, p)) : Prop :=
  (exists C, Y = V *m C) /\ V^T *m (y - Y) = 0.

End Spec.
