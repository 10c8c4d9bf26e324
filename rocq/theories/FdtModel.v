(** * Model of [TSCFiniteDifference] (proof-free).

    Source: datafold/dynfold/transform.py (cited as transform.py), datafold/dynfold/base.py (cited
    as base.py).

    Time values are integers.  A collection has labels of its features, strings or numbers (the same
    type for all, see collection.py 925-950).  Values and coefficients of the finite differences are
    those of DerModel.v.  [NotFittedError] is an [AttributeError]. *)

From Coq Require Import String List ZArith Bool Arith.
Import ListNotations.
From Verif Require Import Np TrModel TscModel ChkModel DerModel ScaModel.
Open Scope nat_scope.

(** The parameter [spacing]: the string "dt", a number (float or int), anything else. *)
Inductive spacing_t := Dt | SpFloat (v : Z) | SpInt (v : Z) | SpOther.

(** [f"{label}"] *)
Definition str_of_name (a : name) : string :=
  match a with
  | Str s => s
  | Num z => if (z <? 0)%Z then String.append "-" (str_of_nat (Z.to_nat (- z))) else str_of_nat (Z.to_nat z)
  end.

Section Model.
Context {V W : Type}.
Variable zero : V.
Variable axpy : V -> W -> V -> V.
Variable scale : nat -> Z -> V -> V.
Variable coefficients : scheme -> nat -> nat -> list (Z * W).
Variable finite : V -> bool.
Notation frame := (list (row V)).

Record collection := Coll { labels : list name; samples : frame }.

(** transform.py 1576-1587: the parameters. *)
Variable spacing : spacing_t.
Variable sch : scheme.
Variables diff_order accuracy : nat.

(** The attributes [n_features_in_], [feature_names_in_], [n_features_out_], [spacing_]. *)
Record fd_state := FdState {
  fd_n_in : option nat; fd_names_in : option (list name); fd_n_out : option nat; fd_spacing : option dt_result }.
Definition fd_init : fd_state := FdState None None None None.

(** base.py 83-212 [_validate_datafold_data] with [ensure_tsc]: accessor.py [check_tsc], where only
    the time delta can be demanded. *)
Definition fd_validate (X : collection) (delta : option dt_result) : result unit :=
  drop_value (check_tsc finite (length (labels X)) KInt
    {| ensure_all_finite := true; ensure_min_samples := 1; ensure_min_features := 1;
       ensure_same_length := false; ensure_const_delta_time := false; ensure_delta_time := delta;
       ensure_same_time_values := false; ensure_normalized_time := false; ensure_n_timeseries := None;
       ensure_min_timesteps := None; ensure_n_timesteps := None; ensure_no_degenerate_ts := false;
       ensure_dtype_time := None |} (samples X)).

(** transform.py 1589-1592 [get_feature_names_out] *)
Definition fd_names_out (names : list name) : list name :=
  map (fun a => Str (String.append (str_of_name a) "_dot")) names.

(** base.py 251-279 [_setup_feature_attrs_fit]: attributes are only set if they are missing. *)
Definition fd_setup (s : fd_state) (X : collection) : fd_state :=
  let names := match fd_names_in s with Some a => a | None => labels X end in
  FdState (match fd_n_in s with Some n => Some n | None => Some (length (labels X)) end)
          (Some names)
          (match fd_n_out s with Some n => Some n | None => Some (length (fd_names_out names)) end)
          (fd_spacing s).

(** transform.py 1594-1676 [fit].  With a number as spacing the call of [check_scalar] (1645-1650)
    lacks the argument [name]. *)
Definition fd_fit (s : fd_state) (X : collection) : fd_state * result unit :=
  match fd_validate X (match spacing with SpFloat v => Some (DtScalar (Some v)) | _ => None end) with
  | Err e => (s, Err e)
  | Ok _ =>
      let s := fd_setup s X in
      match spacing with
      | Dt =>
          match delta_time KInt (samples X) with
          | Err e => (s, Err e)
          | Ok dt =>
              let s := FdState (fd_n_in s) (fd_names_in s) (fd_n_out s) (Some dt) in
              match dt with
              | DtScalar (Some d) =>
                  if (d <=? 0)%Z then (s, Err ValueError)
                  else if diff_order <? 1 then (s, Err ValueError)
                  else if accuracy <? 1 then (s, Err ValueError)
                  else (s, Ok tt)
              | _ => (s, Err TSCException)
              end
          end
      | _ => (s, Err TypeError)
      end
  end.

(** transform.py 1678-1682 [partial_fit] *)
Definition fd_partial_fit (s : fd_state) (X : collection) : fd_state * result unit :=
  match fd_names_in s with None => fd_fit s X | Some _ => (s, Ok tt) end.

(** scikit-learn's [_check_feature_names] with reset=False: labels are compared if they are
    strings. *)
Definition fd_check_names (names_in : option (list name)) (names : list name) : result unit :=
  match names_in with
  | None => Ok tt
  | Some a =>
      if forallb is_str names then (if names_equal a names then Ok tt else Err ValueError)
      else if existsb is_str names then Err TypeError
      else Ok tt
  end.

(** transform.py 1684-1718 [transform] with base.py 281-287 [_validate_feature_input] *)
Definition fd_transform (s : fd_state) (X : collection) : result collection :=
  match fd_spacing s with
  | None => Err AttributeError
  | Some dt =>
      bind (fd_validate X (Some dt)) (fun _ =>
      match fd_n_in s, fd_n_out s with
      | Some n, Some _ =>
          if negb (length (labels X) =? n) then Err ValueError else
          bind (fd_check_names (fd_names_in s) (labels X)) (fun _ =>
          bind (time_derivative zero axpy scale coefficients KInt sch diff_order accuracy true (samples X)) (fun D =>
          Ok (Coll (map (fun a => Str (String.append (str_of_name a) (String.append "_dot" (str_of_nat diff_order)))) (labels X)) D)))
      | _, _ => Err RuntimeError
      end)
  end.

End Model.
