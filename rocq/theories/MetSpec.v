(** * Specification vocabulary for metrics of time series collections.

    Nothing here refers to the functions of MetModel.v (only the names of the metrics are
    used). *)

From Coq Require Import ZArith List.
From mathcomp Require Import all_ssreflect all_algebra.
From Verif Require Import Np TscModel TscSpec MetModel.
Import Order.Theory GRing.Theory Num.Theory.
Set Implicit Arguments.
Unset Strict Implicit.
Unset Printing Implicit Defensive.
Local Open Scope ring_scope.

Section Spec.
Variables (R : rcfType) (f : nat).
Notation vec := ('rV[R]_f).
Notation frame := (list (row vec)).

Definition key (r : row vec) : Z * Z := (rid r, rtime r).

Definition SameIndex (Y P : frame) : Prop := map key Y = map key P.

(** Feature [j] of a sample. *)
Definition feat (r : row vec) (j : 'I_f) : R := rval r ord0 j.

(** The value of feature [j] of series [i] at time [t]. *)
Definition value_at (F : frame) (i t : Z) (j : 'I_f) : option R :=
  match List.find (fun r => Z.eqb (rid r) i && Z.eqb (rtime r) t) F with
  | Some r => Some (feat r j)
  | None => None
  end.

(** The prediction errors of feature [j] at the samples of [Y] whose ID and time satisfy [q]:
    the true value minus what [P] has for the same ID and time. *)
Definition errors (Y P : frame) (q : Z -> Z -> bool) (j : 'I_f) : seq R :=
  [seq feat r j - odflt 0 (value_at P (rid r) (rtime r) j) | r <- Y & q (rid r) (rtime r)].

Definition of_series (i : Z) : Z -> Z -> bool := fun i' _ => Z.eqb i' i.
Definition of_time (t : Z) : Z -> Z -> bool := fun _ t' => Z.eqb t' t.
Definition everywhere : Z -> Z -> bool := fun _ _ => true.

(** Sum of [w_k * g d_k] over the errors; all weights are one if there are none. *)
Definition wsum (w : option (seq R)) (g : R -> R) (d : seq R) : R :=
  match w with
  | None => \sum_(x <- d) g x
  | Some ws => \sum_(q <- zip ws d) q.1 * g q.2
  end.
Definition wtotal (w : option (seq R)) (d : seq R) : R :=
  match w with None => (size d)%:R | Some ws => \sum_(x <- ws) x end.
Definition weighted (w : option (seq R)) (d : seq R) : seq R :=
  match w with None => d | Some ws => [seq q.1 * q.2 | q <- zip ws d] end.

(** What the documentation says a metric is, for a list of errors. *)
Definition total (m : metric) (w : option (seq R)) (d : seq R) : R :=
  match m with
  | mse | rrmse => wsum w (fun x => x ^+ 2) d / wtotal w d
  | rmse => Num.sqrt (wsum w (fun x => x ^+ 2) d / wtotal w d)
  | mae => wsum w (fun x => `|x|) d / wtotal w d
  | l2 => Num.sqrt (\sum_(x <- weighted w d) x ^+ 2)
  | linf => \big[Num.max/0]_(x <- weighted w d) `|x|
  | max_error => \big[Num.max/0]_(x <- d) `|x|
  end.

(** The metrics that always give a table for several features. *)
Definition plain (m : metric) : bool :=
  match m with rrmse | max_error => false | _ => true end.

(** All values multiplied by [c]. *)
Definition times (c : R) (F : frame) : frame :=
  [seq mkRow (rid r) (rtime r) (c *: rval r) | r <- F].

(** Values of feature [j]. *)
Definition feature_values (F : frame) (j : 'I_f) : seq R := [seq feat r j | r <- F].

(** [d] is the difference of the largest and the smallest entry. *)
Definition IsRange (l : seq R) (d : R) : Prop :=
  exists a b, [/\ a \in l, b \in l, forall x, x \in l -> a <= x <= b & d = b - a].

(** [d] is the standard deviation. *)
Definition IsStd (l : seq R) (d : R) : Prop :=
  let m := (\sum_(x <- l) x) / (size l)%:R in
  0 <= d /\ d ^+ 2 * (size l)%:R = \sum_(x <- l) (x - m) ^+ 2.

(** The documented relative root mean squared error: the sum of the squared errors relative
    to the sum of the squared values. *)
Definition relative_error (d y : seq R) : R :=
  Num.sqrt ((\sum_(x <- d) x ^+ 2) / (\sum_(x <- y) x ^+ 2)).

End Spec.
