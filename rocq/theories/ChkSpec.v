(** * Specification of the checks of time series collections. *)

From Coq Require Import List ZArith.
Import ListNotations.
From Verif Require Import Np TscModel TscSpec AccSpec ChkModel.
Open Scope Z_scope.

Section Spec.
Context {V : Type}.
Notation frame := (list (row V)).
Variable finite : V -> bool.
Variable n_features : nat.

Definition AllFinite (F : frame) : Prop := forall r, In r F -> finite (rval r) = true.
Definition SameLength (F : frame) : Prop :=
  forall i j, Occurs F i -> Occurs F j -> length (rows_of F i) = length (rows_of F j).
Definition SameTimes (F : frame) : Prop := forall i j, Occurs F i -> Occurs F j -> times_of F i = times_of F j.
Definition AllRegular (F : frame) (d : Z) : Prop := forall i, Occurs F i -> Regular F i d.

(** [l] lists the IDs of the collection, each once. *)
Definition HasSeries (F : frame) (n : nat) : Prop :=
  exists l, NoDup l /\ (forall i, In i l <-> Occurs F i) /\ length l = n.

(** What the arguments of [check_tsc] request of a collection with integer times. *)
Record Requested (o : checks) (F : frame) : Prop := {
  rq_finite : ensure_all_finite o = true -> AllFinite F;
  rq_samples : (ensure_min_samples o <= length F)%nat;
  rq_features : (ensure_min_features o <= n_features)%nat;
  rq_length : ensure_same_length o = true -> SameLength F;
  rq_regular : ensure_const_delta_time o = true -> exists d, AllRegular F d;
  rq_delta : forall d, ensure_delta_time o = Some (DtScalar (Some d)) -> AllRegular F d;
  rq_times : ensure_same_time_values o = true -> SameTimes F;
  rq_normalized : ensure_normalized_time o = true -> Normalized F;
  rq_series : forall n, ensure_n_timeseries o = Some n -> HasSeries F n;
  rq_steps : forall n, ensure_n_timesteps o = Some n -> forall i, Occurs F i -> length (rows_of F i) = n;
  rq_min_steps : forall n, ensure_min_timesteps o = Some n -> forall i, Occurs F i -> (n <= length (rows_of F i))%nat;
  rq_degenerate : ensure_no_degenerate_ts o = true -> forall i, Occurs F i -> length (rows_of F i) <> 1%nat;
  rq_dtype : forall d, ensure_dtype_time o = Some d -> d = KInt
}.
End Spec.

(** Every series of a regular collection starts at the same time up to multiples of the interval. *)
Definition Aligned {V : Type} (F : list (row V)) (d : Z) : Prop :=
  forall r s, In r F -> In s F -> exists z, rtime r - rtime s = z * d.

(** ** Initial conditions *)
Section Ic.
Context {V : Type}.
Notation frame := (list (row V)).
Variable finite : V -> bool.

(** All initial conditions are finite and have the same times; if they have more than one sample,
    then they are regularly sampled with a common interval. *)
Definition ValidIC (F : frame) : Prop :=
  AllFinite finite F /\ SameTimes F /\
  ((exists i, Occurs F i /\ (1 < length (rows_of F i))%nat) -> exists d, AllRegular F d).

(** The first [n] samples of all series exist, are finite and have the same times; if [n] is larger than
    one, then all series are regularly sampled with a common interval. *)
Definition HasIC (X : frame) (n : nat) : Prop :=
  (forall i, Occurs X i -> (n <= length (rows_of X i))%nat) /\
  (forall i r, In r (firstn n (rows_of X i)) -> finite (rval r) = true) /\
  (forall i j, Occurs X i -> Occurs X j -> firstn n (times_of X i) = firstn n (times_of X j)) /\
  ((1 < n)%nat -> exists d, AllRegular X d).
End Ic.

(** ** Fitting *)

(** The number [span / d] differs from an integer by at most 0.5e-5. *)
Definition NearMultiple (span d : Z) : Prop := exists n, 200000 * Z.abs (span - n * d) <= d.

(** The time between the first and the last time value of the collection. *)
Definition Span {V : Type} (F : list (row V)) (s : Z) : Prop :=
  exists t0 t1, Earliest F t0 /\ (exists r, In r F /\ rtime r = t1) /\ (forall r, In r F -> rtime r <= t1) /\ s = t1 - t0.

(** The controls have the row index of the states, with or without the last state of each series. *)
Definition MatchingControls {V W : Type} (last : bool) (X : list (row V)) (U : list (row W)) : Prop :=
  index U = if last then index X else index_but_last X.
