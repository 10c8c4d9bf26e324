(** * Model of the checks of time series collections (proof-free).

    Source: datafold/pcfold/timeseries/accessor.py (cited as accessor.py),
    datafold/pcfold/timeseries/collection.py (cited as collection.py) and datafold/dynfold/base.py
    (cited as base.py).  The simplifications of TscModel.v apply. *)

From Coq Require Import List ZArith Bool Arith.
Import ListNotations.
From Verif Require Import Np TscModel AccModel.
Open Scope Z_scope.

(** The arguments of accessor.py 48-64 [check_tsc].  [ensure_delta_time] is a number or a table;
    [ensure_dtype_time] is reduced to the kind of the data type. *)
Record checks : Type := Checks {
  ensure_all_finite : bool;
  ensure_min_samples : nat;
  ensure_min_features : nat;
  ensure_same_length : bool;
  ensure_const_delta_time : bool;
  ensure_delta_time : option dt_result;
  ensure_same_time_values : bool;
  ensure_normalized_time : bool;
  ensure_n_timeseries : option nat;
  ensure_min_timesteps : option nat;
  ensure_n_timesteps : option nat;
  ensure_no_degenerate_ts : bool;
  ensure_dtype_time : option tkind
}.

Definition tkind_eqb (a b : tkind) : bool :=
  match a, b with
  | KInt, KInt | KFloat, KFloat | KDatetime, KDatetime => true
  | _, _ => false
  end.

(** One check after the other; the first exception is raised. *)
Definition also (a b : result unit) : result unit :=
  match a with Ok _ => b | Err e => Err e end.

Definition require (b : bool) : result unit := if b then Ok tt else Err TSCException.

Definition when {A : Type} (o : option A) (f : A -> result unit) : result unit :=
  match o with Some x => f x | None => Ok tt end.

Section Checks.
Context {V : Type}.
Notation frame := (list (row V)).
(** [np.isfinite] for all features of a sample, and the number of features *)
Variable finite : V -> bool.
Variable n_features : nat.

(** collection.py 1383-1385. *)
Definition is_finite (F : frame) : bool := forallb (fun r => finite (rval r)) F.

(** collection.py 1408-1414. *)
Definition has_degenerate (F : frame) : bool := negb (is_none (degenerate_ids F)).

(** [nptest.assert_allclose(actual, desired, rtol=1e-12, atol=1e-15)] of two entries: nan equals
    nan; |a - d| <= atol + rtol*|d|, multiplied by 10^15. *)
Definition close_entry (a d : option Z) : bool :=
  match a, d with
  | None, None => true
  | Some a, Some d => Z.abs (a - d) * 1000000000000000 <=? 1 + 1000 * Z.abs d
  | _, _ => false
  end.

Fixpoint all2 {A B : Type} (f : A -> B -> bool) (a : list A) (b : list B) : bool :=
  match a, b with
  | [], [] => true
  | x :: a', y :: b' => f x y && all2 f a' b'
  | _, _ => false
  end.

(** the same for arrays: numbers are broadcast, other shapes must agree *)
Definition allclose (actual desired : dt_result) : bool :=
  match actual, desired with
  | DtScalar a, DtScalar d => close_entry a d
  | DtSeries l, DtScalar d => forallb (fun p => close_entry (snd p) d) l
  | DtScalar a, DtSeries l => forallb (fun p => close_entry a (snd p)) l
  | DtSeries l, DtSeries m => all2 (fun p q => close_entry (snd p) (snd q)) l m
  end.

(** [(delta_times != required).any()] for timedelta; NaT differs from everything. *)
Definition same_entry (a d : option Z) : bool :=
  match a, d with Some a, Some d => a =? d | _, _ => false end.
Definition all_same (actual desired : dt_result) : bool :=
  match actual, desired with
  | DtScalar a, DtScalar d => same_entry a d
  | DtSeries l, DtScalar d => forallb (fun p => same_entry (snd p) d) l
  | DtScalar a, DtSeries l => forallb (fun p => same_entry a (snd p)) l
  | DtSeries l, DtSeries m => all2 (fun p q => same_entry (snd p) (snd q)) l m
  end.

(** accessor.py 223-253 [check_required_time_delta].  The AttributeError of the datetime branch is
    not caught (247 catches AssertionError only). *)
Definition check_required_time_delta (k : tkind) (F : frame) (required : dt_result) : result unit :=
  match delta_time k F with
  | Err e => Err e
  | Ok delta_times =>
      match k with
      | KDatetime => if all_same delta_times required then Ok tt else Err AttributeError
      | _ => require (allclose delta_times required)
      end
  end.

(** collection.py 1371-1381 [is_normalized_time] and accessor.py 212-221; a datetime is never equal
    to zero. *)
Definition check_normalized_time (k : tkind) (F : frame) : result unit :=
  match delta_time k F with
  | Err e => Err e
  | Ok (DtScalar (Some d)) =>
      require (match k with KDatetime => false | _ => (first_time F =? 0) && (d =? 1) end)
  | Ok _ => Err TSCException
  end.

(** accessor.py 269-277 [check_required_n_timesteps]. *)
Definition check_required_n_timesteps (F : frame) (n : nat) : result unit :=
  match n_timesteps F with
  | NSeries _ => Err TSCException
  | NInt m => require (m =? n)%nat
  end.

Definition drop_value {A : Type} (r : result A) : result unit :=
  match r with Ok _ => Ok tt | Err e => Err e end.

(** accessor.py 114-151 [check_tsc] (with 153-173, 192-195, 255-267, 294-301). *)
Definition check_tsc (k : tkind) (o : checks) (F : frame) : result frame :=
  match
    also (if ensure_all_finite o then require (is_finite F) else Ok tt)
    (also (require (negb (length F <? ensure_min_samples o)%nat))
    (also (require (negb (n_features <? ensure_min_features o)%nat))
    (also (if ensure_same_length o then require (is_equal_length F) else Ok tt)
    (also (if ensure_const_delta_time o then drop_value (check_const_time_delta k F) else Ok tt)
    (also (when (ensure_delta_time o) (check_required_time_delta k F))
    (also (if ensure_same_time_values o then require (is_same_time_values F) else Ok tt)
    (also (if ensure_normalized_time o then check_normalized_time k F else Ok tt)
    (also (when (ensure_n_timeseries o) (fun n => require (n_timeseries F =? n)%nat))
    (also (when (ensure_n_timesteps o) (check_required_n_timesteps F))
    (also (when (ensure_min_timesteps o) (check_required_min_timesteps F))
    (also (if ensure_no_degenerate_ts o then require (negb (has_degenerate F)) else Ok tt)
          (when (ensure_dtype_time o) (fun d => require (tkind_eqb k d))))))))))))))
  with
  | Ok _ => Ok F
  | Err e => Err e
  end.

(** ** Initial conditions *)

(** [np.array(X_ic.n_timesteps > 1).any()] *)
Definition any_longer_than_one (F : frame) : bool := existsb (fun n => (1 <? n)%nat) (nsteps_values (n_timesteps F)).

(** collection.py 1900-1959 [InitialCondition.validate]. *)
Definition ic_validate (k : tkind) (F : frame) (n_samples_ic : option nat) (dt : option dt_result) : result unit :=
  match n_samples_ic, dt with
  | None, Some _ => Err ValueError
  | Some 1%nat, Some _ => Err ValueError
  | _, _ =>
      drop_value (check_tsc k
        {| ensure_all_finite := true; ensure_min_samples := 1; ensure_min_features := 1;
           ensure_same_length := true; ensure_const_delta_time := any_longer_than_one F;
           ensure_delta_time := dt; ensure_same_time_values := true; ensure_normalized_time := false;
           ensure_n_timeseries := None; ensure_min_timesteps := None; ensure_n_timesteps := n_samples_ic;
           ensure_no_degenerate_ts := false; ensure_dtype_time := None |} F)
  end.

(** collection.py 1777-1795 [InitialCondition.from_array] of a matrix with one state per row. *)
Definition ic_from_array (k : tkind) (X : list V) (time_value : Z) (ts_ids : option (list Z)) : result frame :=
  let n_ic := length X in
  let i := match ts_ids with None => np_arange n_ic | Some l => l end in
  if negb (length i =? n_ic)%nat then Err ValueError
  else match tsc (map (fun p => mkRow (fst p) time_value (snd p)) (combine i X)) with
  | Err e => Err e
  | Ok F => match ic_validate k F (Some 1%nat) None with Err e => Err e | Ok _ => Ok F end
  end.

(** collection.py 1823-1846 [InitialCondition.from_tsc]. *)
Definition ic_from_tsc (k : tkind) (X : frame) (n_samples_ic : nat) : result frame :=
  match initial_states X n_samples_ic with
  | Err e => Err e
  | Ok F =>
      match (if (1 <? n_samples_ic)%nat
             then match delta_time k X with Ok d => Ok (Some d) | Err e => Err e end
             else Ok None) with
      | Err e => Err e
      | Ok dt => match ic_validate k F (Some n_samples_ic) dt with Err e => Err e | Ok _ => Ok F end
      end
  end.

End Checks.

(** ** Validation in fit: base.py 432-494 [_validate_and_setup_fit_attrs] *)

Section Fit.
Context {V W : Type}.

(** base.py 484-493: the span divided by the interval, rounded half to even to five decimals
    (in units of 10^-5), must be an integer. *)
Definition rint_div (a b : Z) : Z :=
  let q := a / b in
  let r2 := 2 * (a mod b) in
  if r2 <? b then q else if b <? r2 then q + 1 else if Z.even q then q else q + 1.

Definition span_is_multiple (span dt : Z) : bool := (rint_div (span * 100000) dt mod 100000 =? 0).

(** The result is [dt_].  The format of the time values (457) is guaranteed by the collection.  The
    message of the exception in 478-481 refers to an attribute that does not exist. *)
Definition fit_attrs (k : tkind) (requires_last_control_state : bool) (X : list (row V)) (U : option (list (row W)))
  : result Z :=
  match (match U with
         | None => Ok tt
         | Some U =>
             match (if requires_last_control_state then Ok X else drop_last_n_samples X 1) with
             | Err e => Err e
             | Ok X' => if index_eqb (index X') (index U) then Ok tt else Err ValueError
             end
         end) with
  | Err e => Err e
  | Ok _ =>
      match delta_time k X with
      | Err e => Err e
      | Ok (DtScalar (Some dt)) =>
          if span_is_multiple (last (time_values X) 0 - first_time X) dt then Ok dt else Err AssertionError
      | Ok _ => Err AttributeError
      end
  end.
End Fit.
