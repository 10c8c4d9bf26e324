(** * Specification for radial basis coefficients. *)

From mathcomp Require Import all_ssreflect all_algebra.
Import GRing.Theory.
Set Implicit Arguments.
Unset Strict Implicit.
Unset Printing Implicit Defensive.
Local Open Scope ring_scope.

Section Spec.
Variable R : realFieldType.
Variable d : nat.

(** A symmetric distance that vanishes for equal points. *)
Definition is_distance (dist : 'rV[R]_d -> 'rV[R]_d -> R) : Prop :=
  (forall x y, dist x y = dist y x) /\ (forall x, dist x x = 0).

(** Every point of [Y] is one of the centres. *)
Definition among n m (C : 'M[R]_(n, d)) (Y : 'M[R]_(m, d)) : Prop := forall i, exists j, row i Y = row j C.

(** The matrix of the radial basis functions around the centres at the centres. *)
Definition interpolation (dist : 'rV[R]_d -> 'rV[R]_d -> R) (phi : R -> R) n (C : 'M[R]_(n, d)) : 'M[R]_n :=
  \matrix_(i, j) phi (dist (row i C) (row j C)).
End Spec.
