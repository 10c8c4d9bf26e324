(** * Model of further accessor functions (proof-free).

    Source: datafold/pcfold/timeseries/accessor.py (cited as accessor.py) and
    datafold/pcfold/timeseries/collection.py (cited as collection.py).  The simplifications of
    TscModel.v apply, except for [normalize_floats] at the end. *)

From Coq Require Import List ZArith Bool Arith SpecFloat.
Import ListNotations.
From Verif Require Import Np TscModel.
Open Scope Z_scope.

Section Model.
Context {V : Type}.
Notation frame := (list (row V)).

(** collection.py 1476-1491 [time_interval] of the collection (the first component). *)
Definition first_time (F : frame) : Z := list_min (time_values F).

(** collection.py 1371-1381 [is_normalized_time], of a collection with integer times. *)
Definition is_normalized_time (F : frame) : result bool :=
  match delta_time KInt F with
  | Err e => Err e
  | Ok (DtScalar (Some d)) => Ok ((first_time F =? 0) && (d =? 1))
  | Ok _ => Ok false
  end.

(** accessor.py 639-687 [normalize_time].  The quotient is cut off by the conversion to integers
    (672); numerator and denominator are not negative. *)
Definition normalize_time (k : tkind) (F : frame) : result frame :=
  let min_time := first_time F in
  match delta_time k F with
  | Err e => Err e
  | Ok (DtScalar (Some d)) =>
      match tsc (map (fun r => mkRow (rid r) (Z.quot (rtime r - min_time) d) (rval r)) F) with
      | Err e => Err e
      | Ok G => match is_normalized_time G with
                | Err e => Err e
                | Ok true => Ok G
                | Ok false => Err AssertionError
                end
      end
  | Ok _ => Err TSCException
  end.

(** accessor.py 1129-1158 [fill_timeseries_with_last_state].  [np.arange] with the stop value
    reduced by 1e-15 yields exactly [n_attach] times for the numerical kinds; for datetime
    subtracting a float is a TypeError.  [from_array] without an ID uses 0 (collection.py
    608-609). *)
Definition fill_timeseries_with_last_state (k : tkind) (n : nat) (F : frame) : result frame :=
  if negb (n_timeseries F =? 1)%nat then Err NotImplementedError
  else if existsb (fun m => (n <=? m)%nat) (nsteps_values (n_timesteps F)) then Err TSCException
  else match check_const_time_delta k F with
  | Err e => Err e
  | Ok dt =>
      match k with
      | KDatetime => Err TypeError
      | _ =>
          let n_attach := (n - length F)%nat in
          let first_time := last (time_values F) 0 + dt in
          let attach_states := match rev F with r :: _ => repeat (rval r) n_attach | [] => [] end in
          let attach_time := map (fun j => first_time + Z.of_nat j * dt) (seq 0 n_attach) in
          match tsc (series_rows 0 (combine attach_time attach_states)) with
          | Err e => Err e
          | Ok G => tsc (F ++ G)
          end
      end
  end.

End Model.

(** accessor.py 1160-1179 [augment_control_input].  [np.diff] with [prepend=True] compares the
    first ID with 1.  Controls are attached by their index (outer join); None stands for nan. *)
Section Augment.
Context {V W : Type}.

Definition mask_all_except_first (ids : list Z) : list bool :=
  map (fun d => d =? 0) (np_diff (1 :: ids)).

Definition mask_all_except_last (ids : list Z) : list bool :=
  map (fun d => d =? 0) (np_diff ids) ++ [false].

Fixpoint index_eqb (a b : list (Z * Z)) : bool :=
  match a, b with
  | [], [] => true
  | x :: a', y :: b' => pair_eqb x y && index_eqb a' b'
  | _, _ => false
  end.

Fixpoint lookup (x : Z * Z) (l : list ((Z * Z) * W)) : option W :=
  match l with
  | [] => None
  | p :: r => if pair_eqb x (fst p) then Some (snd p) else lookup x r
  end.

Definition augment_control_input (X : list (row V)) (U : list (row W)) : result (list (row (V * option W))) :=
  let first := mask_all_except_first (ids_index X) in
  let last := mask_all_except_last (ids_index X) in
  if negb (index_eqb (index (mask_select last X)) (index U)) then Err AssertionError
  else
    let new_index := index (mask_select first X) in
    if negb (length new_index =? length U)%nat then Err ValueError
    else
      let U := combine new_index (to_numpy U) in
      tsc (map (fun r => mkRow (rid r) (rtime r) (rval r, lookup (rid r, rtime r) U)) X).

End Augment.

(** accessor.py 639-687 [normalize_time] in double precision, for one time series with at least
    three samples, i.e. with the rounding that is ignored above; collection.py 1035 (differences),
    1069-1077 (the minimum is the sampling interval, if the others are within the relative
    tolerance; the absolute tolerance is not needed here). *)
Definition f64 := spec_float.
Definition fsub : f64 -> f64 -> f64 := SFsub 53 1024.
Definition fdiv : f64 -> f64 -> f64 := SFdiv 53 1024.
Definition fmin (x y : f64) : f64 := if SFltb y x then y else x.
Definition rtol : f64 := S754_finite false 7427640235712282 (-91).

Fixpoint fdiff (l : list f64) : list f64 :=
  match l with
  | x :: ((y :: _) as r) => fsub y x :: fdiff r
  | _ => []
  end.

Definition fminimum (l : list f64) : f64 :=
  match l with x :: r => fold_left fmin r x | [] => S754_nan end.

(** the conversion to an integer, towards zero *)
Definition to_int (x : f64) : Z :=
  match x with
  | S754_finite s m e =>
      let a := match e with
               | Z0 => Zpos m
               | Zpos p => Z.shiftl (Zpos m) (Zpos p)
               | Zneg p => Z.shiftr (Zpos m) (Zpos p)
               end in
      if s then - a else a
  | _ => 0
  end.

Definition normalize_floats (times : list f64) : result (list Z) :=
  let d := fdiff times in
  let m := fminimum d in
  if forallb (fun x => SFltb (fdiv (SFabs (fsub x m)) m) rtol) (tl d)
  then Ok (map (fun t => to_int (fdiv (fsub t (fminimum times)) m)) times)
  else Err TSCException.
