(** * Specification for C44 (cut-off) and C45. *)

From mathcomp Require Import all_ssreflect all_algebra.
Import GRing.Theory Num.Theory.
Set Implicit Arguments.
Unset Strict Implicit.
Unset Printing Implicit Defensive.
Local Open Scope ring_scope.

Section Spec.
Variable R : rcfType.

(** [D] is the matrix of distances between points of one set. *)
Definition Distances n (D : 'M[R]_n) : Prop :=
  (forall i j, D i j = D j i) /\ (forall i, D i i = 0) /\ (forall i j, 0 <= D i j).

(** [d] is the distance of row [i] to its k-th nearest column: at least k columns are not
    further away, fewer than k are nearer, and it is attained. *)
Definition KthNearest m n (D : 'M[R]_(m, n)) (k : nat) (i : 'I_m) (d : R) : Prop :=
  (k <= #|[set j | (D i j <= d)%R]|)%N /\ (#|[set j | (D i j < d)%R]| < k)%N /\ exists j, D i j = d.

End Spec.
