(** * Specification for C56. *)

From mathcomp Require Import all_ssreflect all_algebra.
Import GRing.Theory.
Set Implicit Arguments.
Unset Strict Implicit.
Unset Printing Implicit Defensive.
Local Open Scope ring_scope.

Section Spec.
Variables (F : fieldType) (T : Type).

(** The dictionary [psi] spans an invariant subspace of the dynamics [f]: it evolves linearly. *)
Definition KoopmanInvariant n (f : T -> T) (psi : T -> 'cV[F]_n) (K : 'M[F]_n) : Prop :=
  forall x, psi (f x) = K *m psi x.

(** The coordinates [h] of a state are linear combinations of the dictionary functions. *)
Definition Reconstructs n p (psi : T -> 'cV[F]_n) (h : T -> 'cV[F]_p) (C : 'M[F]_(p, n)) : Prop :=
  forall x, h x = C *m psi x.

(** Functions evaluated at samples: one sample per row. *)
Definition samples s n (g : T -> 'cV[F]_n) (x : 'I_s -> T) : 'M[F]_(s, n) := \matrix_(i, j) g (x i) j 0.

End Spec.
