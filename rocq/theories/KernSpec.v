(** * Specification for C35, C36, C37, C55. *)

From mathcomp Require Import all_ssreflect all_algebra.
Import GRing.Theory.
Set Implicit Arguments.
Unset Strict Implicit.
Unset Printing Implicit Defensive.
Local Open Scope ring_scope.

Section Spec.
Variable R : rcfType.

Definition Symmetric n (A : 'M[R]_n) : Prop := forall i j, A i j = A j i.

Definition Nonneg m n (A : 'M[R]_(m, n)) : Prop := forall i j, 0 <= A i j.

Definition PositiveRows m n (A : 'M[R]_(m, n)) : Prop := forall i, 0 < \sum_j A i j.

(** [P] is the Markov matrix of the weights [K]: every weight divided by the sum of its row. *)
Definition Markov m n (K P : 'M[R]_(m, n)) : Prop := forall i j, P i j = K i j / (\sum_k K i k).

(** (e, V) are eigenpairs of [A]: column j of [V] belongs to the j-th value. *)
Definition EigenPairs n k (A : 'M[R]_n) (e : 'rV[R]_k) (V : 'M[R]_(n, k)) : Prop :=
  A *m V = V *m diag_mx e.

(** A row is a probability distribution proportional to the weights of that row. *)
Definition Distribution n (w p : 'rV[R]_n) : Prop :=
  \sum_j p 0 j = 1 /\ (forall j, 0 <= p 0 j) /\ exists c, forall j, p 0 j = c * w 0 j.

(** What is assumed about the eigensolver: if it returns, it returns eigenpairs with
    non-zero eigenvectors. *)
Definition EigenSolver k (eig : forall n : nat, 'M[R]_n -> option ('rV[R]_k * 'M[R]_(n, k))) : Prop :=
  forall n (A : 'M[R]_n) e V, eig n A = Some (e, V) ->
    EigenPairs A e V /\ forall j, exists i, V i j != 0.

End Spec.
