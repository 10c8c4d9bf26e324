(** * Specification: exponentially weighted least squares over a stream. *)

From mathcomp Require Import all_ssreflect all_algebra.
Import Order.Theory GRing.Theory Num.Theory.
Set Implicit Arguments.
Unset Strict Implicit.
Unset Printing Implicit Defensive.
Local Open Scope ring_scope.

Section Spec.
Variable R : realFieldType.
Variable n : nat.

(** Squared error of the prediction [K x] of [y]. *)
Definition sq_error (K : 'M[R]_n) (x y : 'cV[R]_n) : R :=
  \sum_(j < n) (y j 0 - \sum_(k < n) K j k * x k 0) ^+ 2.

(** Sum of squared entries of a matrix. *)
Definition sq_norm (D : 'M[R]_n) : R := \sum_(i < n) \sum_(j < n) D i j ^+ 2.

(** Weighted error over a stream of [size pairs] pairs: the last pair has weight
    [w], the one before [w^2], and so on. *)
Definition stream_error (w : R) (pairs : seq ('cV[R]_n * 'cV[R]_n)) (K : 'M[R]_n) : R :=
  \sum_(i < size pairs)
    w ^+ (size pairs - i) * sq_error K (nth (0, 0) pairs i).1 (nth (0, 0) pairs i).2.

(** ... plus the distance to the initial guess, discounted in the same way. *)
Definition stream_cost (w epsilon : R) (A0 : 'M[R]_n) (pairs : seq ('cV[R]_n * 'cV[R]_n)) (K : 'M[R]_n) : R :=
  w ^+ size pairs * (epsilon * sq_norm (K - A0)) + stream_error w pairs K.

(** No non-zero vector is orthogonal to all states of the stream. *)
Definition stream_spanning (pairs : seq ('cV[R]_n * 'cV[R]_n)) : Prop :=
  forall v : 'cV[R]_n, (forall xy, xy \in pairs -> \sum_k xy.1 k 0 * v k 0 = 0) -> v = 0.

(** What is assumed of [np.linalg.pinv]: the Moore-Penrose equation that makes it
    the least squares inverse. *)
Definition pinv_least_squares (pinv : forall s n : nat, 'M[R]_(s, n) -> 'M[R]_(n, s)) : Prop :=
  forall s n (X : 'M[R]_(s, n)), X^T *m X *m pinv s n X = X^T.

End Spec.
