(** * Specification: kernels of point clouds. *)

From Coq Require Import Reals List.
From Verif Require Import RadModel.
Import ListNotations.
Local Open Scope R_scope.

(** f 0 + ... + f (n - 1) *)
Fixpoint sum (n : nat) (f : nat -> R) : R :=
  match n with O => 0 | S m => sum m f + f m end.

(** The quadratic form of the leading n x n block of K. *)
Definition quad (n : nat) (K : nat -> nat -> R) (c : nat -> R) : R :=
  sum n (fun i => sum n (fun j => c i * c j * K i j)).

Definition NonZero (n : nat) (c : nat -> R) : Prop := exists i, (i < n)%nat /\ c i <> 0.

Definition PositiveSemidefinite n K := forall c, 0 <= quad n K c.
Definition PositiveDefinite n K := forall c, NonZero n c -> 0 < quad n K c.
(** negative on all vectors with sum zero *)
Definition ConditionallyNegative n K := forall c, NonZero n c -> sum n c = 0 -> quad n K c < 0.

(** The value at row i, column j; entries that are not stored are zero. *)
Definition entry (M : matrix) (i j : nat) : R :=
  match M with
  | Dense rows => nth j (nth i rows []) 0
  | Sparse _ rows => fold_right Rplus 0 (map snd (filter (fun p => Nat.eqb (fst p) j) (nth i rows [])))
  end.

(** The value is stored: always in an array. *)
Definition Stored (M : matrix) (i j : nat) : Prop :=
  match M with
  | Dense rows => (i < length rows)%nat /\ (j < length (nth i rows []))%nat
  | Sparse _ rows => In j (map fst (nth i rows []))
  end.

(** All points have [d] coordinates. *)
Definition Cloud (d : nat) (X : list point) : Prop := Forall (fun x => length x = d) X.

(** Euclidean distance of points with the same number of coordinates. *)
Definition euclid (x y : point) : R :=
  sqrt (sum (length x) (fun a => (nth a x 0 - nth a y 0) ^ 2)).

(** The documented kernels as functions of the Euclidean distance r. *)
Definition radial (k : kernel_name) (eps r : R) : R :=
  match k with
  | Gaussian => exp (- (r ^ 2 / (2 * eps)))
  | Multiquadric => sqrt (r ^ 2 / (2 * eps) + 1)
  | InvMultiquadric => / sqrt (r ^ 2 / (2 * eps) + 1)
  | InvQuadratic => / (r ^ 2 / (2 * eps) + 1)
  | Thinplate => r ^ 2 * ln r
  | Cubic => r ^ 3
  | Quintic => r ^ 5
  end.

Definition decaying (k : kernel_name) : Prop := k = Gaussian \/ k = InvMultiquadric \/ k = InvQuadratic.

(** The i-th entry of K c. *)
Definition apply_mat (n : nat) (K : nat -> nat -> R) (c : nat -> R) (i : nat) : R := sum n (fun j => K i j * c j).

(** The query points: without Y the cloud itself. *)
Definition query (X : list point) (Y : option (list point)) : list point := match Y with None => X | Some Y => Y end.
