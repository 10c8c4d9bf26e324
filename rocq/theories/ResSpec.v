(** * Specification vocabulary for C50. *)

From mathcomp Require Import all_ssreflect all_algebra.
Import Order.Theory GRing.Theory Num.Theory.
Set Implicit Arguments.
Unset Strict Implicit.
Unset Printing Implicit Defensive.
Local Open Scope ring_scope.

Section Spec.
Variable C : numClosedFieldType.

(** All entries are real numbers. *)
Definition RealData m n (M : 'M[C]_(m, n)) : Prop := forall i j, M i j \is Num.real.

(** The snapshots (rows) span the state space. *)
Definition Spanning s n (X : 'M[C]_(s, n)) : Prop :=
  forall v : 'cV[C]_n, (forall i, \sum_k X i k * v k 0 = 0) -> v = 0.

(** The rows of [Y] are the images of the rows of [X] under [A]. *)
Definition ExactData s n (X Y : 'M[C]_(s, n)) (A : 'M[C]_n) : Prop :=
  forall i j, Y i j = \sum_k A j k * X i k.

(** Right eigenpair: x -> A x maps [v] to [lam v].  Left eigenpair: [v] are the coefficients of a
    linear function that is multiplied with [lam] by the dynamics, v.(A x) = lam v.x for all x. *)
Definition RightPair n (A : 'M[C]_n) (lam : C) (v : 'cV[C]_n) : Prop :=
  forall i, \sum_k A i k * v k 0 = lam * v i 0.
Definition LeftPair n (A : 'M[C]_n) (lam : C) (v : 'cV[C]_n) : Prop :=
  forall j, \sum_k v k 0 * A k j = lam * v j 0.

(** Weighted sum of |v.x_i|^2 over all snapshots, and of |v.y_i - lam v.x_i|^2. *)
Definition size_of s n (w : 'rV[C]_s) (X : 'M[C]_(s, n)) (v : 'cV[C]_n) : C :=
  \sum_i w 0 i * `| \sum_k X i k * v k 0 | ^+ 2.
Definition defect s n (w : 'rV[C]_s) (X Y : 'M[C]_(s, n)) (lam : C) (v : 'cV[C]_n) : C :=
  \sum_i w 0 i * `| (\sum_k Y i k * v k 0) - lam * (\sum_k X i k * v k 0) | ^+ 2.

(** What is assumed of numpy's eigensolver: it returns right eigenpairs. *)
Definition EigSolver (eig : forall n, 'M[C]_n -> seq (C * 'cV[C]_n)) : Prop :=
  forall n (A : 'M[C]_n) lam v, List.In (lam, v) (eig n A) -> RightPair A lam v.

End Spec.

(** The weight of every snapshot pair: the user's, or the same for all. *)
Definition Weights (C : numClosedFieldType) s (N : nat) (w : option 'rV[C]_s) : 'rV[C]_s :=
  if w is Some v then v else const_mx N%:R^-1.
