(** * Specification vocabulary for simulated systems. *)

From Coq Require Import List ZArith Bool Arith QArith.
Import ListNotations.
From Verif Require Import Np TscModel TscSpec.
Close Scope Q_scope.
Open Scope Z_scope.

Section Spec.
Context {R : Type}.
Notation vec := (list R).
Notation frame := (list (row (list R))).
Notation law := (Q -> vec -> vec).

(** [r] is the sample of series [i] that is held at time [t]: the last one not after t. *)
Definition HeldAt (U : frame) (i : Z) (t : Q) (r : row vec) : Prop :=
  In r (rows_of U i) /\ (inject_Z (rtime r) <= t)%Q /\
  forall r', In r' (rows_of U i) -> (inject_Z (rtime r') <= t)%Q -> rtime r' <= rtime r.

(** Zero-order hold of series [i]: from the time [start] on the law equals the sample held. *)
Definition HoldsFrom (start : Z) (U : frame) (i : Z) (g : law) : Prop :=
  forall t x r, (inject_Z start <= t)%Q -> HeldAt U i t r -> g t x = rval r.

(** The times of a simulation with control samples [U]: the times of [U] (the first one
    may be replaced by a later time of the initial conditions) and one more. *)
Definition GridOf (U : frame) (tv : list Z) : Prop :=
  exists t0 ts t0' tend, time_values U = t0 :: ts /\ tv = t0' :: ts ++ [tend] /\ t0 <= t0'.

(** The result [S] of a simulation: series k starts from the k-th initial condition and
    is the solution with law [law_of k] at the times [tv]. *)
Definition Simulated (solve : law -> vec -> list Z -> option (list vec)) (ics : list vec) (tv : list Z)
  (law_of : nat -> law -> Prop) (S : frame) : Prop :=
  ValidRows S /\ (forall i, Occurs S i <-> 0 <= i < Z.of_nat (length ics)) /\
  forall k x, nth_error ics k = Some x -> exists g ys,
    law_of k g /\ solve g x tv = Some ys /\ length ys = length tv /\
    map (fun r => (rtime r, rval r)) (rows_of S (Z.of_nat k)) = combine tv ys.

End Spec.
