(** * Specification: quadratic cost of a controlled linear system. *)

From mathcomp Require Import all_ssreflect all_algebra.
Import GRing.Theory Num.Theory.
Set Implicit Arguments.
Unset Strict Implicit.
Unset Printing Implicit Defensive.
Local Open Scope ring_scope.

Section Spec.
Variable R : realFieldType.
Variables n m : nat.

(** [x' M x] *)
Definition quad k (M : 'M[R]_k) (x : 'cV[R]_k) : R := (x^T *m M *m x) 0 0.

Definition Psd k (M : 'M[R]_k) : Prop := forall x, 0 <= quad M x.

Variables (A : 'M[R]_n) (B : 'M[R]_(n, m)).

(** The states of [x+ = A x + B u]. *)
Fixpoint state (x0 : 'cV[R]_n) (u : nat -> 'cV[R]_m) (k : nat) : 'cV[R]_n :=
  if k is k'.+1 then A *m state x0 u k' + B *m u k' else x0.

(** Running cost of [N] steps, relative to the target state [xs]. *)
Definition running (Q : 'M[R]_n) (Rc : 'M[R]_m) (xs x0 : 'cV[R]_n) (u : nat -> 'cV[R]_m) (N : nat) : R :=
  \sum_(k < N) (quad Q (state x0 u k - xs) + quad Rc (u k)).

(** The inputs and states of the feedback law [u = f x]. *)
Fixpoint closed (f : 'cV[R]_n -> 'cV[R]_m) (x0 : 'cV[R]_n) (k : nat) : 'cV[R]_n :=
  if k is k'.+1 then A *m closed f x0 k' + B *m f (closed f x0 k') else x0.

(** The discrete algebraic Riccati equation with a symmetric solution. *)
Definition Riccati (Q : 'M[R]_n) (Rc : 'M[R]_m) (P : 'M[R]_n) : Prop :=
  [/\ P^T = P, Rc + B^T *m P *m B \in unitmx &
      P = A^T *m P *m A - A^T *m P *m B *m invmx (Rc + B^T *m P *m B) *m (B^T *m P *m A) + Q].
End Spec.

(** What is assumed of the solver of the Riccati equation: the result is a solution,
    and positive semi-definite. *)
Definition RiccatiSolver (R : realFieldType) n m (A : 'M[R]_n) (B : 'M[R]_(n, m))
    (solve : 'M[R]_n -> 'M[R]_(n, m) -> 'M[R]_n -> 'M[R]_m -> option 'M[R]_n) : Prop :=
  forall Q Rc P, solve A B Q Rc = Some P -> Riccati A B Q Rc P /\ Psd P.

(** The feedback law with gain [F] and target [xs]. *)
Definition feedback (R : realFieldType) n m (F : 'M[R]_(m, n)) (xs x : 'cV[R]_n) : 'cV[R]_m := - F *m (x - xs).
