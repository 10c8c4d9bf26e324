(** * Model of [TSCFeaturePreprocess] with the scalers of [from_name] (proof-free).

    Source: datafold/dynfold/transform.py (cited as transform.py), datafold/dynfold/base.py (cited
    as base.py).  The scalers are the [StandardScaler] and [MinMaxScaler] of scikit-learn 1.2 (the
    version required in /repo/requirements.txt); their formulas and their handling of feature
    names are modelled as well.

    Numbers are elements of a real closed field; [eps] is the machine precision scikit-learn
    compares with.  A table has its type, a row index (any type, empty for an array), the names of
    the columns (empty for an array) and the columns.  Simplified: a value is always finite and a
    frame has one level of column names.  [NotFittedError] is an [AttributeError]. *)

From Coq Require Import String List ZArith.
From mathcomp Require Import all_ssreflect all_algebra.
From Verif Require Import Np TrModel.
Import Order.Theory GRing.Theory Num.Theory.
Set Implicit Arguments.
Unset Strict Implicit.
Unset Printing Implicit Defensive.
Local Open Scope ring_scope.

(** A column label of pandas: a string or a number. *)
Inductive name := Str (s : string) | Num (z : Z).

Inductive type := NumpyArray | PandasFrame | TimeSeries.

Inductive scaler := Center | MinMax | Standard.

(** transform.py 57-67 [from_name] *)
Definition from_name (s : string) : result scaler :=
  if String.eqb s "center" then Ok Center
  else if String.eqb s "min-max" then Ok MinMax
  else if String.eqb s "standard" then Ok Standard
  else Err ValueError.

Definition is_str (a : name) : bool := if a is Str _ then true else false.
Definition the_string (a : name) : string := if a is Str s then s else EmptyString.

Section Model.
Variable R : rcfType.
Variable I : Type.
Variable eps : R.

Record table := Table { kind : type; index : seq I; cnames : seq name; cols : seq (seq R) }.

(** The number of rows (a table without columns is rejected before rows are counted). *)
Definition rows (X : table) : nat := size (head [::] (cols X)).

(** *** scikit-learn: statistics of a column *)

Definition mean (c : seq R) : R := (\sum_(x <- c) x) / (size c)%:R.
Definition variance (c : seq R) : R := (\sum_(x <- c) (x - mean c) ^+ 2) / (size c)%:R.
Definition minimum (c : seq R) : R := foldr Order.min (head 0 c) c.
Definition maximum (c : seq R) : R := foldr Order.max (head 0 c) c.

(** [_is_constant_feature] of scikit-learn. *)
Definition is_constant (c : seq R) : bool :=
  let n := (size c)%:R in
  variance c <= n * eps * variance c + (n * mean c * eps) ^+ 2.

(** Parameters of a column: an offset and a scale.  StandardScaler.fit: mean and (with_std)
    square root of the variance, 1 for constant features; MinMaxScaler.fit: scale
    (1 - 0) / range, the range is 1 if it is below 10 eps ([_handle_zeros_in_scale]), and
    offset 0 - minimum * scale. *)
Definition column_params (k : scaler) (c : seq R) : R * R :=
  match k with
  | Center => (mean c, 1)
  | Standard => (mean c, if is_constant c then 1 else Num.sqrt (variance c))
  | MinMax =>
      let range := maximum c - minimum c in
      let scale := 1 / (if range < 10%:R * eps then 1 else range) in
      (0 - minimum c * scale, scale)
  end.

Definition apply (k : scaler) (p : R * R) (x : R) : R :=
  match k with
  | Center => x - p.1
  | Standard => (x - p.1) / p.2
  | MinMax => x * p.2 + p.1
  end.

Definition unapply (k : scaler) (p : R * R) (x : R) : R :=
  match k with
  | Center => x + p.1
  | Standard => x * p.2 + p.1
  | MinMax => (x - p.1) / p.2
  end.

(** *** scikit-learn: feature names *)

(** [_get_feature_names]: the names if all are strings, an exception for strings among others. *)
Definition get_feature_names (X : table) : result (option (seq name)) :=
  if kind X is NumpyArray then Ok None
  else if all is_str (cnames X) then Ok (Some (cnames X))
  else if has is_str (cnames X) then Err TypeError
  else Ok None.

Definition name_eqb (a b : name) : bool :=
  match a, b with
  | Str s, Str t => String.eqb s t
  | Num x, Num y => Z.eqb x y
  | _, _ => false
  end.

Fixpoint names_equal (a b : seq name) : bool :=
  match a, b with
  | [::], [::] => true
  | x :: a', y :: b' => name_eqb x y && names_equal a' b'
  | _, _ => false
  end.

(** [BaseEstimator._check_n_features] and [_check_feature_names] with reset=False: a missing side
    is only a warning. *)
Definition check_features (n_in : nat) (names_in : option (seq name)) (X : table) : result unit :=
  if size (cols X) != n_in then Err ValueError else
  bind (get_feature_names X) (fun xn =>
  match names_in, xn with
  | Some a, Some b => if names_equal a b then Ok tt else Err ValueError
  | _, _ => Ok tt
  end).

(** *** the wrapped scaler *)

(** A fitted scaler: parameters of the columns, names and number of features. *)
Record fitted := Fitted { params : seq (R * R); inner_names : option (seq name); inner_n : nat }.

Variable k : scaler.

(** [fit] of the scaler; [Err] if the names are mixed. *)
Definition inner_fit (X : table) : result fitted :=
  bind (get_feature_names X) (fun names => Ok (Fitted (map (column_params k) (cols X)) names (size (cols X)))).

(** [get_feature_names_out] of the scaler: its names or x0, x1, ... *)
Definition inner_names_out (f : fitted) : seq name :=
  if inner_names f is Some a then a
  else map (fun i => Str (String.append "x" (str_of_nat i))) (iota 0 (inner_n f)).

Fixpoint zip_with (g : R * R -> R -> R) (ps : seq (R * R)) (cs : seq (seq R)) : seq (seq R) :=
  match ps, cs with
  | p :: ps', c :: cs' => map (g p) c :: zip_with g ps' cs'
  | _, _ => [::]
  end.

(** [transform] of the scaler *)
Definition inner_transform (f : fitted) (X : table) : result (seq (seq R)) :=
  bind (check_features (inner_n f) (inner_names f) X) (fun _ => Ok (zip_with (apply k) (params f) (cols X))).

(** [inverse_transform] of the scaler: no comparison of features; the arrays must be compatible.
    (With a single parameter the array is scaled as a whole.) *)
Definition inner_inverse (f : fitted) (X : table) : result (seq (seq R)) :=
  if size (cols X) == size (params f) then Ok (zip_with (unapply k) (params f) (cols X))
  else if params f is [:: p] then Ok (map (map (unapply k p)) (cols X))
  else Err ValueError.

(** *** the wrapper *)

(** The attributes: [sklearn_transformer_fit_] (None: missing; Some None: a clone that is not
    fitted), [n_features_in_], [feature_names_in_], [n_features_out_]. *)
Record state := State {
  inner : option (option fitted);
  n_features_in : option nat;
  feature_names_in : option (seq name);
  n_features_out : option nat }.

Definition init : state := State None None None None.

(** base.py 83-212 [_validate_datafold_data]: at least one row and one feature. *)
Definition validate_data (X : table) : result unit :=
  if (rows X == 0%N) || (size (cols X) == 0%N)
  then (if kind X is TimeSeries then Err TSCException else Err ValueError)
  else Ok tt.

(** base.py 251-279 [_setup_feature_attrs_fit]: attributes are only set if they are missing; the
    names are those of the frame if they are strings, and numbers for time series. *)
Definition setup_feature_attrs (s : state) (f : fitted) (X : table) : state :=
  State (inner s)
        (if n_features_in s is Some n then Some n else Some (size (cols X)))
        (if feature_names_in s is Some a then Some a
         else if kind X is TimeSeries
              then (if is_str (head (Num 0) (cnames X))
                    then (if get_feature_names X is Ok (Some a) then Some a else None)
                    else Some (cnames X))
              else (if get_feature_names X is Ok (Some a) then Some a else None))
        (if n_features_out s is Some n then Some n else Some (size (inner_names_out f))).

(** base.py 316-355 [_same_type_X]: columns are named and counted for frames only. *)
Definition same_type (X : table) (values : seq (seq R)) (feature_names : seq name) : result table :=
  if kind X is NumpyArray then Ok (Table NumpyArray [::] [::] values)
  else if size feature_names != size values then Err ValueError
  else Ok (Table (kind X) (index X) feature_names values).

(** transform.py 72-103 [fit]: the clone is assigned before the data is validated. *)
Definition fit (s : state) (X : table) : state * result unit :=
  let s := State (Some None) (n_features_in s) (feature_names_in s) (n_features_out s) in
  match validate_data X with
  | Err e => (s, Err e)
  | Ok _ =>
      match inner_fit X with
      | Err e => (s, Err e)
      | Ok f =>
          let s := State (Some (Some f)) (n_features_in s) (feature_names_in s) (n_features_out s) in
          (setup_feature_attrs s f X, Ok tt)
      end
  end.

(** transform.py 105-128 [transform] with base.py 281-287 [_validate_feature_input] *)
Definition transform (s : state) (X : table) : result table :=
  if inner s is Some f then
    bind (validate_data X) (fun _ =>
    match n_features_in s, n_features_out s with
    | Some n, Some _ =>
        bind (check_features n (feature_names_in s) X) (fun _ =>
        if f is Some f then
          bind (inner_transform f X) (fun values => same_type X values (inner_names_out f))
        else Err AttributeError)
    | _, _ => Err RuntimeError
    end)
  else Err AttributeError.

(** transform.py 130-157 [fit_transform]: the data is validated first. *)
Definition fit_transform (s : state) (X : table) : state * result table :=
  match validate_data X with
  | Err e => (s, Err e)
  | Ok _ =>
      let s := State (Some None) (n_features_in s) (feature_names_in s) (n_features_out s) in
      match inner_fit X with
      | Err e => (s, Err e)
      | Ok f =>
          match inner_transform f X with
          | Err e => (s, Err e)
          | Ok values =>
              let s := State (Some (Some f)) (n_features_in s) (feature_names_in s) (n_features_out s) in
              (setup_feature_attrs s f X, same_type X values (inner_names_out f))
          end
      end
  end.

(** transform.py 159-178 [inverse_transform]: no validation of the features;
    [feature_names_in_] is read for arrays, too. *)
Definition inverse_transform (s : state) (X : table) : result table :=
  match inner s with
  | Some (Some f) =>
      bind (inner_inverse f X) (fun values =>
      if feature_names_in s is Some a then same_type X values a else Err AttributeError)
  | _ => Err AttributeError
  end.

End Model.
