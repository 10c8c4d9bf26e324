(** * Specification of the simulation of the DC motor. *)

From Coq Require Import List ZArith Bool Arith.
Import ListNotations.
From Verif Require Import Np TscModel TscSpec PredSpec.
Open Scope Z_scope.

Section Spec.
Context {V W : Type}.
Variable rk : Z -> V -> W -> V.

(** Series [j] of [R] is the simulation of the [j]-th initial condition with the [j]-th control. *)
Definition SimulatedByPosition (xs : list V) (us : list (list W)) (d : Z) (ts : list Z) (R : list (row V)) : Prop :=
  (forall i, Occurs R i <-> 0 <= i < Z.of_nat (length xs)) /\
  forall j x u, nth_error xs j = Some x -> nth_error us j = Some u ->
    rows_of R (Z.of_nat j) = map (fun k => mkRow (Z.of_nat j) (nth k ts 0) (fold_left (rk d) (firstn k u) x)) (seq 0 (length ts)).

(** What the caller expects: series with the IDs of the initial conditions, each driven by the
    control with its own ID. *)
Definition SimulatedById (X : list (row V)) (U : list (row W)) (d : Z) (ts : list Z) (R : list (row V)) : Prop :=
  (forall i, Occurs R i <-> Occurs X i) /\
  forall r, In r X ->
    rows_of R (rid r) = map (fun k => mkRow (rid r) (nth k ts 0)
                              (fold_left (rk d) (firstn k (values_of U (rid r))) (rval r))) (seq 0 (length ts)).

End Spec.
