(** * Specification vocabulary for the Mahalanobis kernel. *)

From mathcomp Require Import all_ssreflect all_algebra.
From Verif Require Import Np MahModel.
Import Order.Theory GRing.Theory Num.Theory.
Set Implicit Arguments.
Unset Strict Implicit.
Unset Printing Implicit Defensive.
Local Open Scope ring_scope.

Section Spec.
Variables (R : rcfType) (m : nat).

(** The quadratic form (x_i - x_j) W (x_i - x_j)^T. *)
Definition form (W : 'M[R]_m) (x : 'rV[R]_m) : R := \sum_a \sum_b x 0 a * W a b * x 0 b.

(** Squared Mahalanobis distance of two points with their own metric each. *)
Definition sq_distance (X : nat -> 'rV[R]_m) (V : nat -> 'M[R]_m) (i j : nat) : R :=
  (form (V i) (X i - X j) + form (V j) (X i - X j)) / 2%:R.

(** The matrices are positive semi-definite. *)
Definition Psd (n : nat) (V : nat -> 'M[R]_m) : Prop := forall i x, (i < n)%N -> 0 <= form (V i) x.

(** Gaussian of a squared distance. *)
Definition gauss (expf : R -> R) (eps d2 : R) : R := expf (- d2 / (2%:R * eps)).

(** What is used of the exponential function. *)
Definition ExpLike (expf : R -> R) : Prop :=
  [/\ expf 0 = 1, forall x, 0 < expf x & forall x y, x < y -> expf x < expf y].

(** Is a value stored for the pair?  Dense arrays store all but the zeros. *)
Definition Stored (D : dist_matrix R) (i j : nat) : Prop :=
  match D with
  | Dense _ _ M => M i j <> 0
  | Sparse A => entry A i j <> None
  end.

Definition shape (D : dist_matrix R) : nat * nat :=
  match D with Dense r c _ => (r, c) | Sparse A => (n_rows A, n_cols A) end.

(** Euclidean distance, squared. *)
Definition sq_euclidean (x y : 'rV[R]_m) : R := \sum_a (x 0 a - y 0 a) ^+ 2.

End Spec.
