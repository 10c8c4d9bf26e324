(** * Specification of [EDMD.predict]. *)

From Coq Require Import List ZArith Bool Arith Sorted.
Import ListNotations.
From Verif Require Import Np TscModel TscSpec PredSpec ChkSpec.
Open Scope Z_scope.

(** The evaluated times for initial conditions at time [r]: by default [r] and the next one,
    otherwise the requested ones and [r]. *)
Definition EvaluatedTimes (r dt : Z) (tv : option (list Z)) (ts : list Z) : Prop :=
  match tv with
  | None => ts = [r; r + dt]
  | Some l => l <> [] /\ StronglySorted Z.lt l /\ (forall t, In t l -> r <= t) /\
              (In r l /\ ts = l \/ ~ In r l /\ ts = r :: l)
  end.

Section Spec.
Context {V W S : Type}.
Variable finite : V -> bool.

(** Every series has [n] finite samples, all have the same times, with distance [dt]. *)
Definition InitialConditions (F : list (row V)) (n : nat) (dt : Z) : Prop :=
  AllFinite finite F /\ SameTimes F /\ (forall i, Occurs F i -> length (rows_of F i) = n) /\
  ((1 < n)%nat -> AllRegular F dt).

(** [l] lists the series of [F], each once. *)
Definition ListsSeries (F : list (row V)) (l : list Z) : Prop :=
  NoDup l /\ forall i, In i l <-> Occurs F i.

Variable enc : list V -> S.
Variable flow : S -> Z -> S.
Variable step : S -> W -> S.
Variable out : S -> V.

(** The prediction of one series from its samples. *)
Definition Predicted (F : list (row V)) (r : Z) (ts : list Z) (R : list (row V)) : Prop :=
  (forall i, Occurs R i <-> Occurs F i) /\
  forall i, Occurs F i ->
    rows_of R i = map (fun t => mkRow i t (out (flow (enc (values_of F i)) (t - r)))) ts.

(** With control: the state at position [k] has seen the first [k] samples of the own control. *)
Definition PredictedControl (F : list (row V)) (G : list (row W)) (ts : list Z) (R : list (row V)) : Prop :=
  (forall i, Occurs R i <-> Occurs F i) /\
  forall i, Occurs F i ->
    rows_of R i = map (fun k => mkRow i (nth k ts 0)
                        (out (fold_left step (firstn k (values_of G i)) (enc (values_of F i)))))
                      (seq 0 (length ts)).

End Spec.

(** Rows with the given values, numbered from zero, at time [t]. *)
Definition states_at {V : Type} (t : Z) (l : list V) : list (row V) :=
  map (fun p => mkRow (fst p) t (snd p)) (combine (map Z.of_nat (seq 0 (length l))) l).

(** A series sampled from time [t] on. *)
Definition sampled_from {W : Type} (i t dt : Z) (us : list W) : list (row W) :=
  map (fun p => mkRow i (fst p) (snd p)) (combine (equispaced t dt (length us)) us).

(** The samples of all series from the n-th one on, series by series. *)
Definition samples_from {V : Type} (F : list (row V)) (n : nat) : list (row V) :=
  flat_map (fun i => skipn (n - 1) (rows_of F i)) (ids F).
