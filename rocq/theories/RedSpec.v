(** * Specification vocabulary for the reduced rank decomposition. *)

From mathcomp Require Import all_ssreflect all_algebra.
Import GRing.Theory.
Set Implicit Arguments.
Unset Strict Implicit.
Unset Printing Implicit Defensive.
Local Open Scope ring_scope.

Section Spec.
Variable F : fieldType.

(** [U], [sv], [Vh] is a thin singular value decomposition of [X]. *)
Definition SVD n s k (X : 'M[F]_(n, s)) (svd : 'M[F]_(n, k) * 'rV[F]_k * 'M[F]_(k, s)) : Prop :=
  let: (U, sv, Vh) := svd in
  [/\ X = U *m diag_mx sv *m Vh, U^T *m U = 1%:M & Vh *m Vh^T = 1%:M].

(** The first [r] singular values do not vanish. *)
Definition Leading n s r q (svd : 'M[F]_(n, r + q) * 'rV[F]_(r + q) * 'M[F]_(r + q, s)) : Prop :=
  forall i : 'I_r, svd.1.2 0 (lshift q i) <> 0.

(** All others do: the rank of the data is [r]. *)
Definition NoMore n s r q (svd : 'M[F]_(n, r + q) * 'rV[F]_(r + q) * 'M[F]_(r + q, s)) : Prop :=
  forall i : 'I_q, svd.1.2 0 (rshift r i) = 0.

(** The columns of [Z] are combinations of the columns of [X]. *)
Definition InSpan n s m (X : 'M[F]_(n, s)) (Z : 'M[F]_(n, m)) : Prop := exists C, Z = X *m C.

(** [B] solves the normal equations of the regression of [Y] on [X] (snapshots in columns). *)
Definition LeastSquares n p s (X : 'M[F]_(n, s)) (Y : 'M[F]_(p, s)) (B : 'M[F]_(p, n)) : Prop :=
  B *m (X *m X^T) = Y *m X^T.

(** ... with rows in the span of the snapshots: the solution of minimal norm. *)
Definition MinNorm n p s (X : 'M[F]_(n, s)) (B : 'M[F]_(p, n)) : Prop := InSpan X B^T.

(** The columns of [W] are eigenvectors of [K] to the eigenvalues [d]. *)
Definition EigenPairs n r (K : 'M[F]_n) (W : 'M[F]_(n, r)) (d : 'rV[F]_r) : Prop :=
  forall j, K *m col j W = d 0 j *: col j W.

End Spec.
