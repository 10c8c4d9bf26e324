(** * Model of the time values and the control input used by predict
      (proof-free).

    Source: datafold/dynfold/base.py 496-677 (cited as base.py),
    datafold/dynfold/dmd.py 203-297 and 350-411 (dmd.py),
    datafold/pcfold/timeseries/collection.py 1961-1973 (collection.py),
    datafold/pcfold/timeseries/accessor.py 197-210 (accessor.py),
    datafold/dynfold/dynsystem.py 486-521 (dynsystem.py).

    Simplifications
    - time values are integers in one fixed unit, arithmetic is exact; the
      tolerance 1e-14 of base.py 538 is [eps] units;
    - [time_values] given by the user is already a one-dimensional array of
      finite numbers (ndim and dtype checks of base.py 655-663 and 669-670 are
      outside the model);
    - the feature names of X and U are not modelled. *)

From Coq Require Import List ZArith Bool Arith.
Import ListNotations.
From Verif Require Import Np TscModel.
Open Scope Z_scope.

Section Model.
Context {V W : Type}.

(** The argument X of predict: a TSCDataFrame or an array. *)
Inductive xarg : Type := XFrame (F : list (row V)) | XArray.

(** The argument U of predict: None, a TSCDataFrame, an array with [n] rows or
    a function. *)
Inductive uarg : Type := UNone | UFrame (U : list (row W)) | UArray (n : nat) | UCallable.

(** base.py 646-677 [_validate_time_values_format]: 665-667 negative values
    (not for datetime), 672-676 not strictly increasing. *)
Definition validate_time_values_format (k : tkind) (tv : list Z) : result (list Z) :=
  if (match k with KDatetime => false | _ => existsb (fun t => t <? 0) tv end)
  then Err ValueError
  else if negb (forallb (fun d => 0 <? d) (np_diff tv)) then Err ValueError
  else Ok tv.

(** base.py 514-531: the reference time.  [now] is the current time, used for
    array-valued X when dt is a timedelta. *)
Definition reference_time (k : tkind) (now : Z) (X : xarg) (U : uarg) : result Z :=
  match X with
  | XFrame F =>
      bind (final_states F 1) (fun L =>
        match np_unique (time_values L) with
        | [r] => Ok r
        | _ => Err ValueError
        end)
  | XArray =>
      match U with
      | UFrame G => match time_values G with t :: _ => Ok t | [] => Err IndexError end
      | _ => match k with KDatetime => Ok now | _ => Ok 0 end
      end
  end.

(** base.py 536-541: no tolerance for integer and datetime references (for an
    array X without control frame the reference is the integer 0). *)
Definition tolerance (k : tkind) (eps : Z) (X : xarg) (U : uarg) : Z :=
  match k with
  | KFloat => match X, U with
              | XArray, UFrame _ => eps
              | XArray, _ => 0
              | XFrame _, _ => eps
              end
  | _ => 0
  end.

(** [np.arange(start, stop, step)] for [step > 0]: the values start, start +
    step, ... below stop; their number is ceil((stop - start) / step). *)
Definition arange_step (start stop step : Z) : list Z :=
  map (fun j => start + Z.of_nat j * step) (seq 0 (Z.to_nat ((stop - start + step - 1) / step))).

Definition extra (req_last : bool) : nat := if req_last then 0 else 1.

(** base.py 496-644 [_validate_and_set_time_values_predict]. *)
Definition predict_time_values (k : tkind) (eps now dt : Z) (req_last : bool)
    (X : xarg) (U : uarg) (tv : option (list Z)) : result (list Z) :=
  bind (reference_time k now X U) (fun r =>
  let tol := tolerance k eps X U in
  match tv with
  | None =>                                                       (* 543 *)
      match U with
      | UNone => Ok [r; r + dt]                                   (* 580 *)
      | UCallable => Err ValueError                               (* 545 *)
      | UFrame G =>                                               (* 551-569 *)
          let t := time_values G in
          let t := if req_last then t else t ++ [last t 0 + dt] in
          let t := filter (fun x => r - tol <=? x) t in
          match t with [] => Err ValueError | _ => Ok t end
      | UArray n =>                                               (* 571-578 *)
          Ok (arange_step r (r + tol + Z.of_nat (n + extra req_last) * dt) dt)
      end
  | Some tv =>
      bind (validate_time_values_format k tv) (fun tv =>          (* 582 *)
      bind (match U with
            | UNone | UCallable => Ok tv
            | UArray n =>                                         (* 585-597 *)
                if (length tv =? n + extra req_last)%nat then Ok tv else Err ValueError
            | UFrame G =>                                         (* 598-619 *)
                let req := filter (fun x => r - tol <=? x) (time_values G) in
                bind (if req_last then Ok req
                      else match req with
                           | [] => Err IndexError
                           | _ => Ok (req ++ [last req 0 + dt])
                           end) (fun req =>
                if (length tv =? length req)%nat
                   && forallb (fun p => Z.abs (fst p - snd p) <=? tol) (combine tv req)
                then Ok tv else Err ValueError)
            end) (fun tv =>
      match X with
      | XArray => Ok tv
      | XFrame _ =>
          if existsb (fun x => x <? r - tol) tv then Err ValueError   (* 628-641 *)
          else match tv with
               | [] => Err IndexError                             (* 643: time_values[0] *)
               | t0 :: _ => if tol <? Z.abs (r - t0) then Ok (r :: tv) else Ok tv
               end
      end))
  end).

(** accessor.py 197-210 [check_contain_required_ids(required, check_order=True)]:
    the IDs of X in storage order (one row per series after initial_states(1)). *)
Definition check_ids_ordered (F : list (row V)) (required : list Z) : result unit :=
  bind (initial_states F 1) (fun L =>
    let x := ids_index L in
    if (length x =? length required)%nat
       && forallb (fun p => fst p =? snd p) (combine x required)
    then Ok tt else Err TSCException).

(** collection.py 1961-1973 [InitialCondition.validate_control]; [U.ids] is the
    sorted list of IDs.  1963 is accessor.py 137-142 [check_equal_timevalues]. *)
Definition validate_control (F : list (row V)) (G : list (row W)) : result unit :=
  bind (check_ids_ordered F (ids G)) (fun _ =>
  if negb (is_same_time_values G) then Err TSCException
  else bind (final_states F 1) (fun L =>
       bind (initial_states G 1) (fun I =>
       match time_values L, time_values I with
       | a :: _, b :: _ => if a =? b then Ok tt else Err TSCException
       | _, _ => Err IndexError
       end))).

(** dmd.py 219-223: [U.to_numpy().reshape(len(U.ids), -1, n_control)], the
    control tensor indexed by initial condition and step. *)
Definition control_tensor (G : list (row W)) : list (list W) :=
  reshape (n_timeseries G) (length G / n_timeseries G) (to_numpy G).

(** dynsystem.py 508-515: number of control states against number of time
    values (all entries of the tensor have the same length). *)
Definition check_control_length (req_last : bool) (tensor : list (list W)) (ts : list Z)
  : result unit :=
  match tensor with
  | [] => Err ValueError
  | u :: _ => if (length u + extra req_last =? length ts)%nat then Ok tt else Err ValueError
  end.

(** dmd.py 350-411 followed by 203-297: predict of a controlled model with X and
    U both TSCDataFrames, up to the call of the flow map.  The result pairs every
    initial condition (storage order of X, dmd.py 216 and 225-227) with the
    control sequence at the same position of the tensor, and gives the time
    values.  InitialCondition.validate (X one row per series at one time) is
    [one_row_per_series]; dmd.py 229-231 duplicates follow from it. *)
Definition one_row_per_series (F : list (row V)) : result unit :=
  match n_timesteps F with
  | NInt 1 => if is_same_time_values F then Ok tt else Err TSCException
  | _ => Err TSCException
  end.

Definition predict_controlled (k : tkind) (eps now dt : Z) (req_last : bool)
    (F : list (row V)) (G : list (row W)) (tv : option (list Z))
  : result (list (row V * list W) * list Z) :=
  bind (predict_time_values k eps now dt req_last (XFrame F) (UFrame G) tv) (fun ts =>
  bind (one_row_per_series F) (fun _ =>
  if negb (is_same_time_values G) then Err TSCException               (* dmd.py 387 *)
  else bind (validate_control F G) (fun _ =>
  let T := control_tensor G in
  if negb (length T =? length F)%nat then Err ValueError             (* dynsystem.py 497 *)
  else bind (check_control_length req_last T ts) (fun _ =>
  Ok (combine F T, ts))))).

(** dmd.py 373-391 for U given as an array: the control frame is built from U
    and all [time_values] (collection.py 1818-1820, TSCDataFrame.from_array
    needs as many time values as rows of U). *)
Definition dmd_array_control (n : nat) (ts : list Z) : result unit :=
  if (n =? length ts)%nat then Ok tt else Err ValueError.

(** appfold/edmd.py 1190-1196: the same with [time_values[:-1]]. *)
Definition edmd_array_control (n : nat) (ts : list Z) : result unit :=
  if (n =? length (removelast ts))%nat then Ok tt else Err ValueError.

(** ** The controlled flow map: dynsystem.py 238-295 [flowmap_matrix_controlled].

    One initial condition, [step] is x -> A x + B u for the fixed matrices; the
    loop runs over np.diff(time_values) but the branch using the time difference
    is disabled ([if False and ...], 278).  The result lists one state per time
    value. *)
Section Flow.
Variable S : Type.
Variable step : S -> W -> S.

Fixpoint flow_states (x : S) (us : list W) (diffs : list Z) : list S :=
  match diffs, us with
  | _ :: ds, u :: us' => x :: flow_states (step x u) us' ds
  | _, _ => [x]
  end.

Definition flowmap_controlled (x : S) (us : list W) (ts : list Z) : list (Z * S) :=
  combine ts (flow_states x us (np_diff ts)).
End Flow.

End Model.
Arguments xarg V : clear implicits.
Arguments uarg W : clear implicits.
