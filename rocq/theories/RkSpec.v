(** * Specification: Taylor polynomials of affine systems. *)

From mathcomp Require Import all_ssreflect all_algebra.
Import GRing.Theory.
Set Implicit Arguments.
Unset Strict Implicit.
Unset Printing Implicit Defensive.
Local Open Scope ring_scope.

Section Spec.
Variable R : fieldType.

(** [f] is the right hand side of x' = M x + c. *)
Definition Affine n (f : 'cV[R]_n -> 'cV[R]_n) (M : 'M[R]_n) (c : 'cV[R]_n) : Prop := forall x, f x = M *m x + c.

(** Taylor polynomial of degree [p] of the solution of x' = M x + c after the time [h]: the k-th
    derivative of the solution at time zero is M^(k-1) (M x + c). *)
Fixpoint derivative n (M : 'M[R]_n) (c x : 'cV[R]_n) (k : nat) : 'cV[R]_n :=
  match k with O => x | 1%N => M *m x + c | k'.+1 => M *m derivative M c x k' end.
Definition taylor n (M : 'M[R]_n) (c x : 'cV[R]_n) (h : R) (p : nat) : 'cV[R]_n :=
  \sum_(k < p.+1) (h ^+ k / (k`!)%:R) *: derivative M c x k.

End Spec.
