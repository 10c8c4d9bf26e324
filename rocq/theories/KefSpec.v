(** * Specification for C93. *)

From mathcomp Require Import all_ssreflect fingroup perm all_algebra.
Import Order.Theory GRing.Theory Num.Theory.
Set Implicit Arguments.
Unset Strict Implicit.
Unset Printing Implicit Defensive.
Local Open Scope ring_scope.

Section Spec.
Variable F : fieldType.

(** What the fit leaves in the model: right eigenvectors [V] of [A] to the eigenvalues [d] that form
    a basis, and possibly the dual basis [L]. *)
Definition Fitted n (A V : 'M[F]_n) (d : 'rV[F]_n) (L : option 'M[F]_n) : Prop :=
  [/\ V \in unitmx, forall j, A *m col j V = d 0 j *: col j V &
      forall L', L = Some L' -> L' *m V = 1%:M].

(** The normal equations of the least squares problem min |V b - x|. *)
Definition Projects (lstsq : forall m n p : nat, 'M[F]_(m, n) -> 'M[F]_(m, p) -> 'M[F]_(n, p)) : Prop :=
  forall m n p (V : 'M[F]_(m, n)) (X : 'M[F]_(m, p)), V^T *m (V *m lstsq m n p V X - X) = 0.

End Spec.

Section Ranked.
Variable C : numClosedFieldType.

(** [argsort] arranges the values in increasing order. *)
Definition Increasing (argsort : forall r, ('I_r -> C) -> 'S_r) : Prop :=
  forall r (f : 'I_r -> C), (forall i, f i \is Num.real) ->
  forall i j : 'I_r, (i <= j)%N -> f (argsort r f i) <= f (argsort r f j).

(** Importance of the triplet [j]: length of the mode times the mean modulus of the eigenfunction
    over the samples (rows of [xi]). *)
Definition Importance s p r (modes : 'M[C]_(p, r)) (xi : 'M[C]_(s, r)) (j : 'I_r) : C :=
  sqrtC (\sum_i `|modes i j| ^+ 2) * (\sum_k `|xi k j| / s%:R).

End Ranked.
