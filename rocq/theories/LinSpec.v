(** * Specification vocabulary for linear systems. *)

From mathcomp Require Import all_ssreflect fingroup perm all_algebra.
Import Order.Theory GRing.Theory Num.Theory.
From Verif Require Import LinModel.
Set Implicit Arguments.
Unset Strict Implicit.
Unset Printing Implicit Defensive.
Local Open Scope ring_scope.

(** What is assumed of the least squares routine: it solves every system that has
    a solution. *)
Definition solves_consistent (F : fieldType) (lstsq : lstsq_t F) : Prop :=
  forall m n p (A : 'M[F]_(m, n)) (B : 'M[F]_(m, p)) (Z : 'M[F]_(n, p)),
    A *m Z = B -> A *m lstsq m n p A B = B.

Section Real.
Variable R : realFieldType.

(** Sum over all snapshot pairs (rows of [X], [Y]) of the weighted squared error
    of the one-step prediction [K x_i] of [y_i]. *)
Definition one_step_error s n p (w : 'rV[R]_s) (X : 'M[R]_(s, n)) (Y : 'M[R]_(s, p)) (K : 'M[R]_(p, n)) : R :=
  \sum_(i < s) w 0 i * \sum_(j < p) (Y i j - \sum_(k < n) K j k * X i k) ^+ 2.

(** The snapshots span the state space: no non-zero linear functional vanishes on
    all of them. *)
Definition spanning s n (X : 'M[R]_(s, n)) : Prop :=
  forall v : 'cV[R]_n, (forall i, \sum_k X i k * v k 0 = 0) -> v = 0.

(** The weight of every snapshot pair: the user's, or the same for all. *)
Definition weights s (N : nat) (w : option 'rV[R]_s) : 'rV[R]_s :=
  if w is Some v then v else const_mx N%:R^-1.

End Real.

Section Field.
Variable F : fieldType.

(** Trajectory of x_{k+1} = A x_k. *)
Fixpoint trajectory n m (A : 'M[F]_n) (x : 'M[F]_(n, m)) (k : nat) : 'M[F]_(n, m) :=
  if k is k'.+1 then A *m trajectory A x k' else x.

(** Trajectory of x_{k+1} = A x_k + B u_k. *)
Fixpoint ctrajectory n q m (A : 'M[F]_n) (B : 'M[F]_(n, q)) (x : 'M[F]_(n, m))
    (u : nat -> 'M[F]_(q, m)) (k : nat) : 'M[F]_(n, m) :=
  if k is k'.+1 then A *m ctrajectory A B x u k' + B *m u k' else x.

End Field.
