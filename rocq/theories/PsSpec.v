(** * Specification vocabulary for C101. *)

From mathcomp Require Import all_ssreflect all_algebra.
From Verif Require Import ResSpec.
Import Order.Theory GRing.Theory Num.Theory.
Set Implicit Arguments.
Unset Strict Implicit.
Unset Printing Implicit Defensive.
Local Open Scope ring_scope.

Section Spec.
Variable C : numClosedFieldType.

(** The sum of squared absolute values of the coefficients of an observable. *)
Definition coeff_norm2 n (v : 'cV[C]_n) : C := \sum_k `|v k 0| ^+ 2.

(** Size of the observable with coefficients [v] on the data, plus the regularisation:
    sum_i w_i |v.x_i|^2 + shift |v|^2. *)
Definition mass s n (w : 'rV[C]_s) (X : 'M[C]_(s, n)) (shift : C) (v : 'cV[C]_n) : C :=
  size_of w X v + shift * coeff_norm2 v.

(** [r]^2 is the minimum over all observables [v] <> 0 of
    (sum_i w_i |v.y_i - z v.x_i|^2) / (sum_i w_i |v.x_i|^2 + shift |v|^2). *)
Definition MinimalResidual s n (w : 'rV[C]_s) (X Y : 'M[C]_(s, n)) (shift z r : C) : Prop :=
  0 <= r /\
  (forall v, r ^+ 2 * mass w X shift v <= defect w X Y z v) /\
  (exists v, v != 0 /\ defect w X Y z v = r ^+ 2 * mass w X shift v).

(** The observable attains this minimum. *)
Definition Attains s n (w : 'rV[C]_s) (X Y : 'M[C]_(s, n)) (shift z r : C) (v : 'cV[C]_n) : Prop :=
  v != 0 /\ defect w X Y z v = r ^+ 2 * mass w X shift v.

(** No observable but zero vanishes on the data and the regularisation. *)
Definition PositiveMass s n (w : 'rV[C]_s) (X : 'M[C]_(s, n)) (shift : C) : Prop :=
  forall v, v != 0 -> 0 < mass w X shift v.

(** numpy.linalg.eigh on the matrix [M]: real eigenvalues, orthogonal real eigenvectors. *)
Definition EighOf n (M : 'M[C]_n) (res : 'rV[C]_n * 'M[C]_n) : Prop :=
  RealData res.1 /\ RealData res.2 /\
  res.2 *m res.2^T = 1%:M /\ M = res.2 *m diag_mx res.1 *m res.2^T.

(** scipy's eigs on the matrix [M]: one eigenpair whose eigenvalue has the least absolute value. *)
Definition EigsOf n (M : 'M[C]_n) (res : option (seq (C * 'cV[C]_n))) : Prop :=
  exists mu v, [/\ res = Some [:: (mu, v)], v != 0, RightPair M mu v &
    forall r u, u != 0 -> RightPair M r u -> `|mu| <= `|r|].

End Spec.
