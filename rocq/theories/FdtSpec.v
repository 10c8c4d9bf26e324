(** * Specification of the finite difference transformation (C109) *)

From Coq Require Import String List ZArith.
From Verif Require Import Np TscModel TscSpec ScaModel FdtModel.

(** A collection the object accepts, apart from its time values: valid, with finite values and at
    least one feature; time steps below 10^11. *)
Definition GoodCollection {V : Type} (finite : V -> bool) (X : collection (V := V)) : Prop :=
  ValidRows (samples X) /\ SmallSteps (samples X) /\ labels X <> nil /\
  forall r, In r (samples X) -> finite (rval r) = true.

(** All labels are strings. *)
Definition StringLabels {V : Type} (X : collection (V := V)) : Prop := forall a, In a (labels X) -> exists s, a = Str s.

(** The series [i] has the same samples in both collections up to time [t]. *)
Definition SamePast {V : Type} (F G : list (row V)) (i t : Z) : Prop :=
  forall u v, (u <= t)%Z -> (In (mkRow i u v) F <-> In (mkRow i u v) G).
