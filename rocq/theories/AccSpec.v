(** * Specification of further accessor functions. *)

From Coq Require Import List ZArith.
Import ListNotations.
From Verif Require Import Np TscModel TscSpec.
Open Scope Z_scope.

Section Spec.
Context {V : Type}.
Notation frame := (list (row V)).

(** [t] is the first time value of the collection. *)
Definition Earliest (F : frame) (t : Z) : Prop :=
  (exists r, In r F /\ rtime r = t) /\ (forall r, In r F -> t <= rtime r).

(** The earliest time is zero and every series has sampling interval one. *)
Definition Normalized (F : frame) : Prop :=
  Earliest F 0 /\ (forall i, Occurs F i -> Regular F i 1).

(** [G] has the rows of [F], possibly with other times. *)
Definition SameUpToTime (F G : frame) : Prop :=
  Forall2 (fun r g => rid g = rid r /\ rval g = rval r) F G.

(** The collection is a single series with ID [i]. *)
Definition OnlySeries (F : frame) (i : Z) : Prop := forall r, In r F -> rid r = i.

(** The row index without the last sample of each series. *)
Fixpoint index_but_last (F : frame) : list (Z * Z) :=
  match F with
  | a :: ((b :: _) as F') =>
      if rid a =? rid b then (rid a, rtime a) :: index_but_last F' else index_but_last F'
  | _ => []
  end.

(** [b] is the first row of its series. *)
Definition FirstOfSeries (F : frame) (b : row V) : Prop :=
  In b F /\ forall a, Next F a b -> rid a <> rid b.

End Spec.
