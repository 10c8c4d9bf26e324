(** * Specification of finite differences in time. *)

From Coq Require Import List ZArith.
Import ListNotations.
From mathcomp Require Import all_ssreflect all_algebra.
From Verif Require Import Np TscModel.
Import Order.Theory GRing.Theory Num.Theory.
Set Implicit Arguments.
Unset Strict Implicit.
Unset Printing Implicit Defensive.
Local Open Scope ring_scope.

Section Spec.
Variables (R : realFieldType) (f : nat).
Notation vec := ('rV[R]_f).
Notation frame := (list (row vec)).

(** The integer [z] as a number. *)
Definition number (z : Z) : R :=
  match z with
  | Z0 => 0
  | Zpos p => (Pos.to_nat p)%:R
  | Zneg p => - (Pos.to_nat p)%:R
  end.

(** [r] is the finite difference at time [t] of the series [rid r] of [F], which has the sampling
    interval [d] (units of length [unit]): all samples at the times t + offset * d exist, and the
    value is their weighted sum divided by the [order]-th power of the interval. *)
Definition Derivative (unit : R) (stencil : seq (Z * R)) (order : nat) (d : Z) (F : frame) (t : Z) (r : row vec) : Prop :=
  exists x : Z -> vec,
    (forall p, List.In p stencil -> List.In (mkRow (rid r) (Z.add t (Z.mul p.1 d)) (x p.1)) F) /\
    rval r = (unit * number d) ^- order *: \sum_(p <- stencil) p.2 *: x p.1.

(** [lo] and [hi] are the smallest and largest offset; the stencil contains the point itself in
    between. *)
Definition Extent (stencil : seq (Z * R)) (lo hi : Z) : Prop :=
  [/\ (exists w, List.In (lo, w) stencil), (exists w, List.In (hi, w) stencil),
      (forall p, List.In p stencil -> Z.le lo p.1 /\ Z.le p.1 hi) & (Z.le lo Z0 /\ Z.le Z0 hi)].

(** The order conditions of a finite difference scheme (Taylor expansion). *)
Definition OrderConditions (stencil : seq (Z * R)) (order accuracy : nat) : Prop :=
  forall q, (q < order + accuracy)%N ->
    \sum_(p <- stencil) p.2 * number p.1 ^+ q = if q == order then (order`!)%:R else 0.

End Spec.
