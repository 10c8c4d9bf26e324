(** * Specification vocabulary for post observables. *)

From Coq Require Import List ZArith Bool Arith QArith.
Import ListNotations.
From Verif Require Import Np TscModel TscSpec.
Open Scope nat_scope.

Section Spec.
Context {V : Type}.
Notation frame := (list (row V)).
Variable absdiff : V -> V -> V.

(** [e] is the error of the reconstructed sample [r] with respect to the sample of [X]
    with the same ID and time. *)
Definition ErrorOf (X : frame) (r e : row V) : Prop :=
  exists x, In x X /\ rid x = rid r /\ rtime x = rtime r /\
            e = mkRow (rid r) (rtime r) (absdiff (rval x) (rval r)).

(** A usable reconstruction [R] of [X]: both valid, samples of [X] only, every series
    with two samples or more. *)
Definition Usable (R X : frame) : Prop :=
  ValidRows R /\ ValidRows X /\ incl (index R) (index X) /\
  (forall i, Occurs X i -> 2 <= length (rows_of R i)).

(** First row of a series. *)
Definition InitialState (F : frame) (r : row V) : Prop :=
  exists l, rows_of F (rid r) = r :: l.

End Spec.
