(** * Specification vocabulary for generator-based DMD. *)

From mathcomp Require Import all_ssreflect all_algebra.
Import Order.Theory GRing.Theory Num.Theory.
From Verif Require Import LinModel LinSpec GenModel.
Set Implicit Arguments.
Unset Strict Implicit.
Unset Printing Implicit Defensive.
Local Open Scope ring_scope.

(** The snapshots determine a control-affine system: no non-zero combination of the states and
    of the products of control input and state vanishes at all of them. *)
Definition affine_spanning (R : realFieldType) s n q (X : 'M[R]_(s, n)) (U : 'M[R]_(s, q)) : Prop :=
  forall (v : 'cV[R]_n) (W : 'M[R]_(q, n)),
    (forall i, \sum_k X i k * v k 0 + \sum_c \sum_k U i c * X i k * W c k = 0) -> v = 0 /\ W = 0.

(** Squared error of the derivative predicted by xdot = A x + sum_c u_c B_c x. *)
Definition affine_error (R : realFieldType) s n q (X Xdot : 'M[R]_(s, n)) (U : 'M[R]_(s, q))
    (A : 'M[R]_n) (B : 'I_q -> 'M[R]_n) : R :=
  \sum_i \sum_a (Xdot i a - (\sum_k A a k * X i k + \sum_c U i c * \sum_k B c a k * X i k)) ^+ 2.

