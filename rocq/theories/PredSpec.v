(** * Specification vocabulary for the time values of predictions. *)

From Coq Require Import List ZArith Bool Arith Sorted.
Import ListNotations.
From Verif Require Import Np TscModel TscSpec.
Open Scope Z_scope.

Section Spec.
Context {V : Type}.
Notation frame := (list (row V)).

(** [t] is the time of the last sample of series [i]. *)
Definition LastTime (F : frame) (i t : Z) : Prop :=
  (exists r, In r F /\ rid r = i /\ rtime r = t) /\
  (forall r, In r F -> rid r = i -> rtime r <= t).

(** Every series of the collection ends at time [t]. *)
Definition Reference (F : frame) (t : Z) : Prop :=
  forall i, Occurs F i -> LastTime F i t.

(** Every series has the same times [ts]. *)
Definition CommonTimes (F : frame) (ts : list Z) : Prop :=
  forall i, Occurs F i -> times_of F i = ts.

(** Tolerance when comparing time values: only for floating point times. *)
Definition tol_of (k : tkind) (eps : Z) : Z := match k with KFloat => eps | _ => 0 end.

(** The time values [t0, t0 + dt, ..., t0 + (n-1) dt]. *)
Definition equispaced (t0 dt : Z) (n : nat) : list Z :=
  map (fun j => t0 + Z.of_nat j * dt) (seq 0 n).

(** Values of one series in storage order. *)
Definition values_of (F : frame) (i : Z) : list V := map rval (rows_of F i).

End Spec.
