(** * Model of [EDMD.predict] and of the data of [EDMD.score] (proof-free).

    Source: datafold/appfold/edmd.py 774-866, 1150-1219 and 1588-1633 (cited as edmd.py),
    datafold/dynfold/dmd.py 350-411 (dmd.py), datafold/dynfold/dynsystem.py 486-521
    (dynsystem.py), datafold/pcfold/timeseries/collection.py 1797-1821.

    Simplifications
    - integer time values; [stepwise_transform=False] (see StepModel), no quantities of interest
      (see QoiModel), feature names agree;
    - the dictionary maps the samples of an initial condition to one dictionary state ([enc], at
      the time of the last sample) and lists the series in the order [order]; a series with too
      few samples raises TSCException;
    - the fitted DMD model is [flow] (state after an elapsed time) or, with control, one [step] per
      control sample; [out] is the map back to the full state (inverse map, Koopman modes or the
      inverse transform of the dictionary), row by row; no [_inverse_map_control]. *)

From Coq Require Import List ZArith Bool Arith.
Import ListNotations.
From Verif Require Import Np TscModel AccModel ChkModel PredModel ReconModel WinModel CtrModel.
Open Scope Z_scope.

Section Model.
Context {V W S : Type}.
Variable finite : V -> bool.
Variable n_features : nat.
Variable order : list (row V) -> list Z.
Variable enc : list V -> S.
Variable flow : S -> Z -> S.
Variable step : S -> W -> S.
Variable out : S -> V.

(** The arguments X and U of predict; arrays have one row per initial condition (control
    sample). *)
Inductive xin : Type := XF (F : list (row V)) | XA (l : list V).
Inductive uin : Type := UN | UF (G : list (row W)) | UA (us : list W).

Definition xarg_of (X : xin) : xarg V := match X with XF F => XFrame F | XA _ => XArray end.
Definition uarg_of (U : uin) : uarg W :=
  match U with UN => UNone | UF G => UFrame G | UA us => UArray (length us) end.

(** Attributes of the fitted model. *)
Record edmd_fit := EdmdFit {
  controlled : bool; use_transform_inverse : bool; n_samples_ic : nat; dt : Z }.

(** edmd.py 1156-1170. *)
Definition initial_condition (m : edmd_fit) (X : xin) (U : uin) (ts : list Z) : result (list (row V)) :=
  match X with
  | XA l =>
      match ts with
      | [] => Err IndexError
      | t0 :: _ => ic_from_array finite n_features KInt l t0 (match U with UF G => Some (ids G) | _ => None end)
      end
  | XF F =>
      bind (ic_validate finite n_features KInt F (Some (n_samples_ic m))
              (if (1 <? n_samples_ic m)%nat then Some (DtScalar (Some (dt m))) else None)) (fun _ => Ok F)
  end.

(** collection.py 1797-1821 [from_array_control]. *)
Definition control_from_array (us : list W) (ts : list Z) (i : Z) : result (list (row W)) :=
  if negb (length us =? length ts)%nat then Err ValueError
  else tsc (map (fun p => mkRow i (fst p) (snd p)) (combine ts us)).

(** edmd.py 1172-1195.  Without control 1197 [_validate_feature_names] compares the columns of U
    with None and fails while it builds the message. *)
Definition control_of (m : edmd_fit) (F : list (row V)) (U : uin) (ts : list Z) : result (option (list (row W))) :=
  if controlled m then
    match U with
    | UN => Err TypeError
    | UF G => bind (validate_control F G) (fun _ => Ok (Some G))
    | UA us =>
        if (1 <? n_timeseries F)%nat then Err NotImplementedError
        else bind (control_from_array us (removelast ts) (hd 0 (ids F))) (fun G => Ok (Some G))
    end
  else match U with UN => Ok None | _ => Err AttributeError end.

(** edmd.py 1421-1457 [transform] of the initial conditions. *)
Definition transform_ic (m : edmd_fit) (F : list (row V)) : result (list (row S)) :=
  bind (check_required_min_timesteps F (n_samples_ic m)) (fun _ => Ok (dict_ic enc (order F) F)).

(** dmd.py 350-411 and 203-297 without control: the rows of one initial condition. *)
Definition flow_rows (ts : list Z) (x : row S) : list (row V) :=
  map (fun t => mkRow (rid x) t (out (flow (rval x) (t - hd 0 ts)))) ts.

Definition control_rows (ts : list Z) (xu : row S * list W) : list (row V) :=
  map (fun q : Z * S => mkRow (rid (fst xu)) (fst q) (out (snd q)))
      (flowmap_controlled S step (rval (fst xu)) (snd xu) ts).

(** edmd.py 774-866 [_predict_dict_ic]: with [use_transform_inverse] (857-858) U is not passed to the DMD
    model, and dynsystem.py 492 fails for a controlled one. *)
Definition predict_dict_ic (m : edmd_fit) (D : list (row S)) (U : option (list (row W))) (ts : list Z)
  : result (list (row V)) :=
  match U with
  | None =>
      bind (predict_time_values (W := W) KInt 0 0 (dt m) false (XFrame D) UNone (Some ts)) (fun ts =>
      bind (one_row_per_series D) (fun _ =>
      if controlled m then Err AttributeError
      else tsc (flat_map (flow_rows ts) D)))
  | Some G =>
      bind (predict_controlled KInt 0 0 (dt m) false D G (Some ts)) (fun p =>
      tsc (flat_map (control_rows (snd p)) (fst p)))
  end.

(** edmd.py 1150-1219 [predict]. *)
Definition edmd_predict (m : edmd_fit) (X : xin) (U : uin) (tv : option (list Z)) : result (list (row V)) :=
  bind (predict_time_values KInt 0 0 (dt m) false (xarg_of X) (uarg_of U) tv) (fun ts =>
  bind (initial_condition m X U ts) (fun F =>
  bind (control_of m F U ts) (fun G =>
  bind (transform_ic m F) (fun D =>
  predict_dict_ic m D (if use_transform_inverse m then None else G) ts)))).

End Model.

(** edmd.py 1588-1633 [score] up to the evaluation of the metric: the true and the reconstructed rows
    (without control; [pred] predicts from the initial samples). *)
Definition edmd_score_data {V : Type} (pred : list V -> Z -> V) (F : list (row V)) (n : nat)
  : result (list (row V) * list (row V)) :=
  bind (edmd_reconstruct pred KInt F n) (fun R =>
  bind (if (1 <? n)%nat then loc_index F (index R) else Ok F) (fun T => Ok (T, R))).

Arguments xin V : clear implicits.
Arguments uin W : clear implicits.
