(** * Specification for C42. *)

From mathcomp Require Import all_ssreflect all_algebra.
Import GRing.Theory Num.Theory.
Set Implicit Arguments.
Unset Strict Implicit.
Unset Printing Implicit Defensive.
Local Open Scope ring_scope.

Section Spec.
Variable R : rcfType.

(** The prediction deviates from target [j] by at most the tolerance (if there is one), or by
    less than the tiny threshold: in the Euclidean norm and hence in every sample. *)
Definition Meets n q (tol : option R) (tiny : R) (y y_hat : 'M[R]_(n, q)) (j : 'I_q) : Prop :=
  (exists2 t, tol = Some t &
     \sum_i (y i j - y_hat i j) ^+ 2 <= t ^+ 2 /\ forall i, `|y i j - y_hat i j| <= t) \/
  (forall i, `|y i j - y_hat i j| < tiny).

(** A kernel function of the scale: symmetric, non-negative, one on the diagonal. *)
Definition KernelFunction n (gauss : R -> 'M[R]_n) : Prop :=
  forall e i j, gauss e i j = gauss e j i /\ 0 <= gauss e i j /\ gauss e i i = 1.

(** The points are distinct: their mutual weights vanish when the scale [e / mu^k] is reduced. *)
Definition Distinct n (gauss : R -> 'M[R]_n) (e mu : R) : Prop :=
  forall d, 0 < d -> exists N : nat, forall k i j, (N <= k)%N -> i != j -> gauss (e / mu ^+ k) i j <= d.

Definition Archimedean : Prop := forall x : R, exists m : nat, x <= m%:R.

End Spec.
