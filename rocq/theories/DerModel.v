(** * Model of finite differences in time (proof-free).

    Source: datafold/pcfold/timeseries/accessor.py (cited as accessor.py).

    [V] is the type of states, [W] the type of the coefficients; the arithmetic is given by
    [zero], [axpy acc w x] (acc + w * x) and [scale order d] (multiplication with
    1 / spacing**order, where the spacing is [d] units of time); DerProps.v uses real vectors.
    [coefficients] is findiff's table (a dependency): pairs of offsets and weights. *)

From Coq Require Import List ZArith Bool Arith.
Import ListNotations.
From Verif Require Import Np TscModel.
Open Scope nat_scope.

Inductive scheme := backward | center | forward.

Section Model.
Context {V W : Type}.
Variable zero : V.
Variable axpy : V -> W -> V -> V.
Variable scale : nat -> Z -> V -> V.
Variable coefficients : scheme -> nat -> nat -> list (Z * W).
Notation frame := (list (row V)).

(** [l[a:b]] for non-negative bounds. *)
Definition slice {A : Type} (a b : nat) (l : list A) : list A := firstn (b - a) (skipn a l).

(** findiff's [_shift_slice]: a bound of a slice moved by an offset. *)
Definition moved (k : nat) (o : Z) : nat := Z.to_nat (Z.of_nat k + o)%Z.

(** accessor.py 758-774 with findiff's [_apply_to_array]: for every offset the correspondingly
    shifted slice of the data is added to the slice [start:end] with its weight. *)
Definition apply_to_array (st : list (Z * W)) (start_sample end_sample : nat) (data : list V) : list V :=
  fold_left (fun acc p => map (fun q => axpy (fst q) (snd p) (snd q))
                              (combine acc (slice (moved start_sample (fst p)) (moved end_sample (fst p)) data)))
            st (repeat zero (end_sample - start_sample)).

(** accessor.py 746-798 [_InternalDiff.diff] of one time series.  If the series is too short
    (end_sample <= start_sample), the code raises an error or returns an empty frame, which is
    rejected by [from_frame_list]; here the result is always empty. *)
Definition diff (st : list (Z * W)) (order : nat) (spacing : Z) (shift : bool) (s : list (Z * V))
  : list (Z * V) :=
  let n := length s in
  let start_sample := Z.to_nat (Z.abs (list_min (map fst st))) in
  let end_sample := n - Z.to_nat (Z.abs (zmax (map fst st))) in
  let data_dt := map (scale order spacing) (apply_to_array st start_sample end_sample (map snd s)) in
  let index := if shift then skipn (n - length data_dt) (map fst s)
               else slice start_sample end_sample (map fst s) in
  combine index data_dt.

(** accessor.py 785: the option has no effect for scheme "backward". *)
Definition shifts (s : scheme) (shift_index : bool) : bool :=
  match s with backward => false | _ => shift_index end.

(** accessor.py 704-824 [time_derivative] (an invalid scheme, 800-801, cannot be formed).
    With datetime indices the spacing is a timedelta, for which the power in 782 is not
    defined. *)
Definition time_derivative (k : tkind) (s : scheme) (diff_order accuracy : nat) (shift_index : bool) (F : frame)
  : result frame :=
  match check_const_time_delta k F with
  | Err e => Err e
  | Ok spacing =>
      match k with
      | KDatetime => Err TypeError
      | _ => from_frame_list
               (map (fun p => diff (coefficients s diff_order accuracy) diff_order spacing (shifts s shift_index) (snd p))
                    (itertimeseries F))
               (Some (ids F))
      end
  end.

End Model.
