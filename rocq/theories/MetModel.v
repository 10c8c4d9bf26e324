(** * Model of TSCMetric and TSCScoring (proof-free).

    Source: datafold/pcfold/timeseries/metric.py (cited as metric.py).

    Values are elements of a real closed field (exact arithmetic, all values are
    finite, so [check_finite] (454-455) never fails).  The frames have [f]
    features; the columns of both frames are equal by typing.  The metrics "mape"
    and "medae" are not modelled.  The functions of scikit-learn (1.2) and
    the scalers follow their documentation; [_handle_zeros_in_scale] treats
    exactly the value 0 as 0. *)

From Coq Require Import ZArith List.
From mathcomp Require Import all_ssreflect all_algebra.
From Verif Require Import Np TscModel.
Import Order.Theory GRing.Theory Num.Theory.
Set Implicit Arguments.
Unset Strict Implicit.
Unset Printing Implicit Defensive.
Local Open Scope ring_scope.

Inductive metric := mse | rmse | mae | l2 | linf | rrmse | max_error.
Inductive mode := timeseries | timestep | feature.
Inductive scaling := id_scaling | min_max | standard | l2_normalize.

Section Met.
Variables (R : rcfType) (f : nat).
Notation vec := ('rV[R]_f).
Notation frame := (list (row vec)).

(** metric.py 424-433: "raw_values", "uniform_average" or an array. *)
Inductive multi := raw_values | uniform_average | user_weights of vec.

(** All results, or the first exception. *)
Fixpoint all_ok (A : Type) (l : seq (result A)) : result (seq A) :=
  match l with
  | [::] => Ok [::]
  | r :: l' => bind r (fun a => bind (all_ok l') (fun l'' => Ok (a :: l'')))
  end.

(** [np.average(l, weights=w)] after scikit-learn's check that samples and weights
    have the same length. *)
Definition average (w : option (seq R)) (l : seq R) : result R :=
  match w with
  | None => Ok ((\sum_(x <- l) x) / (size l)%:R)
  | Some ws =>
      if size ws != size l then Err ValueError
      else if \sum_(x <- ws) x == 0 then Err ZeroDivisionError
      else Ok ((\sum_(p <- zip ws l) p.1 * p.2) / (\sum_(x <- ws) x))
  end.

(** Difference of two columns. *)
Definition diff (y p : seq R) : seq R := [seq q.1 - q.2 | q <- zip y p].

(** metric.py 124-127: [sample_weight[:, np.newaxis] * diff]. *)
Definition weight (w : option (seq R)) (d : seq R) : result (seq R) :=
  match w with
  | None => Ok d
  | Some ws => if size ws != size d then Err ValueError
               else Ok [seq q.1 * q.2 | q <- zip ws d]
  end.

(** [np.linalg.norm] of a vector, [ord=None] and [ord=np.inf]. *)
Definition norm2 (d : seq R) : R := Num.sqrt (\sum_(x <- d) x ^+ 2).
Definition norm_inf (d : seq R) : R := \big[Num.max/0]_(x <- d) `|x|.

(** The error of one column: scikit-learn's [mean_squared_error] (squared or
    not), [mean_absolute_error], metric.py 115-134 [_norm_metric] and 205-212
    [_max_error] (which ignores the weights). [rrmse] is treated below. *)
Definition column_error (m : metric) (w : option (seq R)) (y p : seq R) : result R :=
  match m with
  | mse | rrmse => average w [seq x ^+ 2 | x <- diff y p]
  | rmse => bind (average w [seq x ^+ 2 | x <- diff y p]) (fun e => Ok (Num.sqrt e))
  | mae => average w [seq `|x| | x <- diff y p]
  | l2 => bind (weight w (diff y p)) (fun d => Ok (norm2 d))
  | linf => bind (weight w (diff y p)) (fun d => Ok (norm_inf d))
  | max_error => Ok (norm_inf (diff y p))
  end.

Definition column (j : 'I_f) (rows : seq vec) : seq R := [seq (v : vec) ord0 j | v <- rows].

(** The errors of all columns. *)
Definition column_errors (m : metric) (w : option (seq R)) (y p : seq vec) : result (seq R) :=
  all_ok [seq column_error m w (column j y) (column j p) | j <- enum 'I_f].

(** Reduction of the columns.  scikit-learn averages (with the user's weights);
    metric.py 131-134 [_norm_metric] only knows "uniform_average": with an array
    the vector of all columns is returned. *)
Definition reduce (m : metric) (mo : multi) (e : seq R) : result (seq R) :=
  match mo with
  | raw_values => Ok e
  | uniform_average => bind (average None e) (fun x => Ok [:: x])
  | user_weights u =>
      match m with
      | l2 | linf => Ok e
      | _ => bind (average (Some [seq u ord0 j | j <- enum 'I_f]) e) (fun x => Ok [:: x])
      end
  end.

(** metric.py 180-203 [_rrmse_metric].  The norm is a scalar for
    "uniform_average" and a vector otherwise, also if the mean squared error is a
    scalar (array as [multioutput]); [np.divide] then broadcasts. *)
Definition norm_factor (mo : multi) (y : seq vec) : seq R :=
  match mo with
  | uniform_average => [:: \sum_(v <- y) (Num.sqrt (\sum_j ((v : vec) ord0 j) ^+ 2)) ^+ 2]
  | _ => [seq \sum_(x <- column j y) x ^+ 2 | j <- enum 'I_f]
  end.

Definition divide (a b : seq R) : seq R :=
  match a with
  | [:: x] => [seq x / y | y <- b]
  | _ => [seq q.1 / q.2 | q <- zip a b]
  end.

Definition rrmse_metric (w : option (seq R)) (mo : multi) (y p : seq vec) : result (seq R) :=
  let n := norm_factor mo y in
  if has (fun x => x <= (10%:R ^+ 14)^-1) n then Err RuntimeError
  else bind (column_errors mse w y p) (fun e =>
       bind (reduce mse mo e) (fun r =>
       Ok [seq Num.sqrt x | x <- divide r n])).

(** [self.metric(y_true, y_pred, sample_weight, multioutput)]: metric.py 214-241.
    [max_error] of scikit-learn rejects several columns (211, 212). *)
Definition evaluate (m : metric) (w : option (seq R)) (mo : multi) (y p : seq vec)
  : result (seq R) :=
  match m with
  | rrmse => rrmse_metric w mo y p
  | max_error => if f == 1%N then column_errors m w y p else Err ValueError
  | _ => bind (column_errors m w y p) (reduce m mo)
  end.

(** [table.loc[label, :] = value]: a single value is broadcast to all columns, a
    vector must have as many entries as the table has columns. *)
Definition assign (width : nat) (v : seq R) : result (seq R) :=
  if size v == width then Ok v
  else match v with [:: x] => Ok (nseq width x) | _ => Err ValueError end.

Definition width (mo : multi) : nat := match mo with raw_values => f | _ => 1%N end.

Definition rows_where (q : row vec -> bool) (F : frame) : seq vec :=
  [seq rval r | r <- F & q r].

(** metric.py 267-314 [_metric_per_timeseries]. *)
Definition per_timeseries (m : metric) (w : option (seq R)) (mo : multi) (Y P : frame)
  : result (seq (Z * seq R)) :=
  let table :=
    all_ok [seq bind (evaluate m w mo (rows_where (fun r => Z.eqb (rid r) i) Y)
                                      (rows_where (fun r => Z.eqb (rid r) i) P))
                     (fun v => bind (assign (width mo) v) (fun row => Ok (i, row)))
           | i <- ids Y] in
  match w with
  | None => table
  | Some ws =>
      if ~~ is_equal_length Y then Err TSCException
      else match n_timesteps Y with
           | NInt n => if size ws != n then Err ValueError else table
           | NSeries _ => Err ValueError
           end
  end.

(** metric.py 352-406 [_metric_per_timestep]. *)
Definition per_timestep (m : metric) (w : option (seq R)) (mo : multi) (Y P : frame)
  : result (seq (Z * seq R)) :=
  let table :=
    all_ok [seq bind (evaluate m w mo (rows_where (fun r => Z.eqb (rtime r) t) Y)
                                      (rows_where (fun r => Z.eqb (rtime r) t) P))
                     (fun v => bind (assign (width mo) v) (fun row => Ok (t, row)))
           | t <- time_values Y] in
  match w with
  | None => table
  | Some ws =>
      if ~~ is_equal_length Y then Err TSCException
      else if size ws != n_timeseries Y then Err ValueError
      else table
  end.

(** metric.py 316-350 [_metric_per_feature]: always "raw_values"; the result is a
    series labelled by the columns.  [pd.Series(scalar, index)] of [max_error]
    (one column) has the same single entry. *)
Definition per_feature (m : metric) (w : option (seq R)) (Y P : frame) : result (seq R) :=
  let e := evaluate m w raw_values (rows_where xpredT Y) (rows_where xpredT P) in
  match w with
  | None => e
  | Some ws => if size ws != size Y then Err ValueError else e
  end.

(** ** Scaling: metric.py 101-113 [_scaling] with the scalers of 87-99.

    A fitted scaler is the function applied to a row. *)
Definition minimum (l : seq R) : R := \big[Num.min/head 0 l]_(x <- l) x.
Definition maximum (l : seq R) : R := \big[Num.max/head 0 l]_(x <- l) x.
Definition mean (l : seq R) : R := (\sum_(x <- l) x) / (size l)%:R.
Definition std (l : seq R) : R :=
  Num.sqrt ((\sum_(x <- l) (x - mean l) ^+ 2) / (size l)%:R).
Definition handle_zero (s : R) : R := if s == 0 then 1 else s.

Definition scaler (s : scaling) (y : seq vec) : vec -> vec :=
  match s with
  | id_scaling => id
  | min_max => fun v => \row_j ((v ord0 j - minimum (column j y)) /
                                handle_zero (maximum (column j y) - minimum (column j y)))
  | standard => fun v => \row_j ((v ord0 j - mean (column j y)) / handle_zero (std (column j y)))
  | l2_normalize => fun v => \row_j (v ord0 j / handle_zero (Num.sqrt (\sum_k (v ord0 k) ^+ 2)))
  end.

Definition map_frame (g : vec -> vec) (F : frame) : frame :=
  [seq mkRow (rid r) (rtime r) (g (rval r)) | r <- F].

Definition scale (s : scaling) (Y P : frame) : frame * frame :=
  let g := scaler s (rows_where xpredT Y) in (map_frame g Y, map_frame g P).

(** metric.py 446-496 [__call__].  Results per series or time step have a label,
    per feature the label is the position of the column. *)
Inductive outcome := Labelled of seq (Z * seq R) | PerFeature of seq R.

Definition same_index (Y P : frame) : bool :=
  (size Y == size P) &&
  all (fun q => Z.eqb (rid q.1) (rid q.2) && Z.eqb (rtime q.1) (rtime q.2)) (zip Y P).

Definition tsc_metric (m : metric) (md : mode) (s : scaling) (w : option (seq R)) (mo : multi)
    (Y P : frame) : result outcome :=
  if ~~ same_index Y P then Err ValueError
  else let YP := scale s Y P in
       match md with
       | timeseries => bind (per_timeseries m w mo YP.1 YP.2) (fun t => Ok (Labelled t))
       | timestep => bind (per_timestep m w mo YP.1 YP.2) (fun t => Ok (Labelled t))
       | feature => bind (per_feature m w YP.1 YP.2) (fun t => Ok (PerFeature t))
       end.

(** metric.py 536-596 [TSCScoring.__call__].  A table with several columns cannot
    be turned into a series (566, 568-573); the entries of a series are averaged,
    with weights if given (578 asserts the length). *)
Definition entries (o : outcome) : result (seq R) :=
  match o with
  | PerFeature l => Ok l
  | Labelled t => if all (fun q => size q.2 == 1%N) t then Ok (flatten [seq q.2 | q <- t])
                  else Err ValueError
  end.

Definition score (m : metric) (md : mode) (s : scaling) (w : option (seq R)) (mo : multi)
    (greater_is_better : bool) (sw : option (seq R)) (Y P : frame) : result R :=
  bind (tsc_metric m md s w mo Y P) (fun o =>
  bind (entries o) (fun e =>
  bind (match sw with
        | None => average None e
        | Some ws => if size ws != size e then Err AssertionError else average (Some ws) e
        end) (fun x => Ok (if greater_is_better then x else - x)))).

End Met.
