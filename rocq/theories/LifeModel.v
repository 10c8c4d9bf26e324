(** * Model of the life cycle of an EDMD object (proof-free).

    Source: datafold/appfold/edmd.py 971-1090 [fit] and 1335-1419
    [partial_fit] (cited as edmd.py).

    Only the attributes that steer later calls are modelled.  What depends on the data
    is part of the call: whether the data pass the validation, and whether and where
    the remaining steps fail.  [check_is_fitted] of a scikit-learn pipeline asks its
    last step, the DMD model; here: whether that model has been fitted. *)

From Coq Require Import List ZArith Bool Arith.
Import ListNotations.
From Verif Require Import Np.

Record object := mkObject {
  is_partial : option bool;     (** is_partial_fit_ *)
  dmd_fitted : bool;
  is_controlled : option bool;  (** is_controlled_ *)
  is_transition : option bool   (** is_state_transition_map_ *)
}.

Definition new_object : object := mkObject None false None None.

(** Failure of the steps after the checks: none, before or after the DMD model is
    fitted. *)
Inductive steps := Succeed | FailBefore (e : err) | FailAfter (e : err).

Record call := mkCall {
  partial : bool;        (** partial_fit or fit *)
  data_error : option err; (** result of [_validate_datafold_data] *)
  with_U : bool;
  with_y : bool;
  rest : steps
}.

(** The steps from the dictionary on. *)
Definition finish (o : object) (s : steps) : object * result unit :=
  match s with
  | Succeed => (mkObject (is_partial o) true (is_controlled o) (is_transition o), Ok tt)
  | FailBefore e => (o, Err e)
  | FailAfter e => (mkObject (is_partial o) true (is_controlled o) (is_transition o), Err e)
  end.

(** edmd.py 971-996 and the following steps. *)
Definition fit (o : object) (c : call) : object * result unit :=
  match data_error c with
  | Some e => (o, Err e)
  | None =>
      let o := mkObject (is_partial o) (dmd_fitted o) (is_controlled o) (Some (with_y c)) in
      match is_partial o with
      | Some true => (o, Err ValueError)
      | _ => finish (mkObject (Some false) (dmd_fitted o) (Some (with_U c)) (is_transition o)) (rest c)
      end
  end.

(** edmd.py 1335-1369 and the following steps. *)
Definition partial_fit (o : object) (c : call) : object * result unit :=
  match data_error c with
  | Some e => (o, Err e)
  | None =>
      if with_y c then (o, Err NotImplementedError)
      else if with_U c then (o, Err NotImplementedError)
      else
        let o := mkObject (is_partial o) (dmd_fitted o) (Some false) (is_transition o) in
        if dmd_fitted o then
          match is_partial o with
          | None => (o, Err AttributeError)
          | Some false => (o, Err AssertionError)
          | Some true => finish o (rest c)
          end
        else
          match is_partial o with
          | Some false => (o, Err ValueError)
          | _ => finish (mkObject (Some true) (dmd_fitted o) (is_controlled o) (is_transition o)) (rest c)
          end
  end.

Definition call_method (o : object) (c : call) : object * result unit :=
  if partial c then partial_fit o c else fit o c.

(** The object after a sequence of calls; exceptions are caught by the caller. *)
Definition run (h : list call) : object := fold_left (fun o c => fst (call_method o c)) h new_object.

(** edmd.py 869-880: the first tests of a stepwise prediction.  For a state transition
    map it fails in any case; the class of the exception also depends on whether the
    state is part of the map. *)
Definition stepwise_guard (o : object) : result unit :=
  match is_transition o with
  | None => Err AttributeError
  | Some true => Err ValueError
  | Some false => Ok tt
  end.
