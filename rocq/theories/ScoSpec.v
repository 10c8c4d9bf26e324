(** * Specification of prediction and score (C110) *)

From mathcomp Require Import all_ssreflect all_algebra.
Import Order.Theory GRing.Theory Num.Theory.
Set Implicit Arguments.
Unset Strict Implicit.
Unset Printing Implicit Defensive.
Local Open Scope ring_scope.

Section Spec.
Variable R : rcfType.

(** Value of the interpolant for target [j] at the point [x]: kernel values times coefficients. *)
Definition value_at p n q (krow : 'rV[R]_p -> 'rV[R]_n) (aux : 'M[R]_(n, q)) (x : 'rV[R]_p) (j : 'I_q) : R :=
  \sum_i krow x 0 i * aux i j.

(** Mean squared error of the target [j] at [m] points. *)
Definition mse p n q (krow : 'rV[R]_p -> 'rV[R]_n) (aux : 'M[R]_(n, q)) m (X : 'M[R]_(m, p)) (Y : 'M[R]_(m, q)) (j : 'I_q) : R :=
  (\sum_i (Y i j - value_at krow aux (row i X) j) ^+ 2) / m%:R.

(** The same with weights of the samples. *)
Definition weighted_mse p n q (krow : 'rV[R]_p -> 'rV[R]_n) (aux : 'M[R]_(n, q)) m (X : 'M[R]_(m, p)) (Y : 'M[R]_(m, q))
  (w : 'I_m -> R) (j : 'I_q) : R :=
  (\sum_i w i * (Y i j - value_at krow aux (row i X) j) ^+ 2) / (\sum_i w i).

(** The average of numbers, one for each target. *)
Definition average q (f : 'I_q -> R) : R := (\sum_j f j) / q%:R.

End Spec.
