(** * Specification of kernel objects (C111) *)

From mathcomp Require Import all_ssreflect all_algebra.
Import Order.Theory GRing.Theory Num.Theory.
Set Implicit Arguments.
Unset Strict Implicit.
Unset Printing Implicit Defensive.
Local Open Scope ring_scope.

Section Spec.
Variable R : rcfType.
Variable p : nat.
Variable k : 'rV[R]_p -> 'rV[R]_p -> R.

(** The sampling density at the point [y]: the sum of all kernel values with the points [X]. *)
Definition density n (X : 'M[R]_(n, p)) (y : 'rV[R]_p) : R := \sum_l k y (row l X).

(** Probability of a step from [y] to the point [j] of [X], if the points have the weights [q]. *)
Definition step_probability n (X : 'M[R]_(n, p)) (q : 'I_n -> R) (y : 'rV[R]_p) (j : 'I_n) : R :=
  (k y (row j X) / q j) / (\sum_l k y (row l X) / q l).

(** One row of Roseland's matrix: kernel values, scaled such that the sum of values times landmark
    weights times the same factor is one. *)
Definition landmark_row n (X : 'M[R]_(n, p)) (w : 'I_n -> R) (y : 'rV[R]_p) (j : 'I_n) : R :=
  k y (row j X) / Num.sqrt (\sum_l k y (row l X) * w l).

End Spec.

(** [c] is the first call of the history [h] that succeeds on a new object. *)
Definition first_success (C : Type) (succeeds : C -> Prop) (h : seq C) (c : C) : Prop :=
  exists h1 h2, h = h1 ++ c :: h2 /\ succeeds c /\ forall c', List.In c' h1 -> ~ succeeds c'.
