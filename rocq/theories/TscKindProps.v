(** * C03 for floating point and datetime indexes. *)

From Coq Require Import List ZArith Bool Arith Lia.
Import ListNotations.
From Verif Require Import Np TscModel TscSpec TscProofs TscDt TscKindSpec TscKind.
Local Open Scope Z_scope.

(** Floating point time values: a single value [d] is reported exactly when every series is sampled
    with [d], or all series are equally long (at least three rows) and sampled with [d] after their
    first step, which is not shorter. *)
Theorem C03_float_scalar_iff :
  forall (V : Type) (F : list (row V)) d, ValidRows F -> SmallSteps F ->
    (delta_time KFloat F = Ok (DtScalar (Some d)) <->
     (forall i, Occurs F i -> Regular F i d) \/
     (exists n, (3 <= n)%nat /\
        forall i, Occurs F i -> length (rows_of F i) = n /\ RegularAfterFirst F i d)).
Proof. exact @delta_time_float_scalar. Qed.
Print Assumptions C03_float_scalar_iff.

(** Floating point time values: the only error is the ValueError of a one-row series among series of
    different lengths. *)
Theorem C03_float_error_iff :
  forall (V : Type) (F : list (row V)) e, ValidRows F ->
    (delta_time KFloat F = Err e <->
     e = ValueError /\ is_equal_length F = false /\
     exists i, Occurs F i /\ length (rows_of F i) = 1%nat).
Proof. exact @delta_time_float_error. Qed.
Print Assumptions C03_float_error_iff.

(** Datetime values: always a single value, which is the interval of one series only: the one stored
    first if all series are equally long, otherwise the one with the smallest ID. *)
Theorem C03_datetime_first_series :
  forall (V : Type) (F : list (row V)), ValidRows F ->
    exists o, delta_time KDatetime F = Ok (DtScalar o) /\
      forall i d, Occurs F i ->
        (if is_equal_length F then exists r G, F = r :: G /\ rid r = i
         else forall j, Occurs F j -> i <= j) ->
        (o = Some d <-> Regular F i d).
Proof. exact @delta_time_datetime. Qed.
Print Assumptions C03_datetime_first_series.

(** Two series with a longer first step: within the hypotheses, and not sampled with 1. *)
Definition ex_late : list (row Z) :=
  [mkRow 0 0 0; mkRow 0 5 0; mkRow 0 6 0; mkRow 0 7 0;
   mkRow 4 3 0; mkRow 4 5 0; mkRow 4 6 0; mkRow 4 7 0].

Example C03_float_scalar_example :
  ValidRows ex_late /\ delta_time KFloat ex_late = Ok (DtScalar (Some 1)) /\
  RegularAfterFirst ex_late 0 1 /\ ~ Regular ex_late 0 1.
Proof.
  split; [apply (proj1 (tsc_ok ex_late ex_late)); reflexivity|]. split; [reflexivity|]. split.
  - unfold RegularAfterFirst. cbn. split; [lia|]. split; [lia|].
    intros k H1 H2. destruct k as [|[|[|k]]]; try reflexivity; lia.
  - intros [_ H]. specialize (H (mkRow 0 0 0) (mkRow 0 5 0)).
    assert (E : 5 - 0 = 1); [|discriminate]. apply H; try reflexivity.
    exists [], (tl (tl ex_late)). reflexivity.
Qed.

Example C03_float_error_example :
  delta_time KFloat [mkRow 0 0 0; mkRow 0 1 0; mkRow 3 4 (0 : Z)] = Err ValueError.
Proof. reflexivity. Qed.

Example C03_datetime_example :
  delta_time KDatetime [mkRow 5 0 0; mkRow 5 1 0; mkRow 2 0 0; mkRow 2 7 (0 : Z)] = Ok (DtScalar (Some 1))
  /\ delta_time KDatetime [mkRow 5 0 0; mkRow 5 1 0; mkRow 2 0 0; mkRow 2 7 0; mkRow 2 14 (0 : Z)]
     = Ok (DtScalar (Some 7)).
Proof. split; reflexivity. Qed.
