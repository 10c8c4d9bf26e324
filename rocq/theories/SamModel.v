(** * Model of [TSCDataFrame.from_same_indices_as] (proof-free).

    Source: datafold/pcfold/timeseries/collection.py (cited as collection.py),
    datafold/utils/general.py (cited as general.py).

    Values are two-dimensional; the names of index levels and columns axis, and the check for numeric
    values are left out. *)

From Coq Require Import String.
From Coq Require Import List ZArith Bool Arith.
Import ListNotations.
From Verif Require Import Np TscModel ColModel.
Open Scope Z_scope.

Section Model.
Context {V : Type}.

(** A data frame: index (series, time), columns and values by rows. *)
Record table := mkTable { t_index : list (Z * Z); t_columns : list string; t_values : list (list V) }.

Inductive object :=
| TSC (t : table)      (* TSCDataFrame *)
| PD (t : table)       (* pandas.DataFrame *)
| Array (a : list (list V)).

(** general.py 453: [np.asarray(values)] *)
Definition asarray (o : object) : list (list V) :=
  match o with TSC t => t_values t | PD t => t_values t | Array a => a end.

(** The rows of a table. *)
Definition table_rows (index : list (Z * Z)) (values : list (list V)) : list (row (list V)) :=
  map (fun p => mkRow (fst (fst p)) (snd (fst p)) (snd p)) (combine index values).

(** [pd.DataFrame(data=values, index=index, columns=columns)]: the shape has to fit. *)
Definition pd_frame (values : list (list V)) (index : list (Z * Z)) (columns : list string) : result table :=
  if Nat.eqb (List.length values) (List.length index) &&
     forallb (fun v => Nat.eqb (List.length v) (List.length columns)) values
  then Ok (mkTable index columns values) else Err ValueError.

(** collection.py 309-356 [TSCDataFrame(data=...)]: the frame of pandas, then 925-965 [_validate]. *)
Definition tsc_frame (values : list (list V)) (index : list (Z * Z)) (columns : list string) : result table :=
  bind (pd_frame values index columns) (fun t =>
  bind (tsc (table_rows index values)) (fun _ =>
  if nodupb columns then Ok t else Err AttributeError)).

(** general.py 436-470 [df_type_and_indices_from] *)
Definition df_type_and_indices_from (indices_from values : object) (except_index : option (list (Z * Z)))
    (except_columns : option (list string)) : result object :=
  match except_index, except_columns with
  | Some _, Some _ => Err ValueError
  | _, _ =>
      let values := asarray values in
      let index t := match except_index with None => t_index t | Some i => i end in
      let columns t := match except_columns with None => t_columns t | Some c => c end in
      match indices_from with
      | TSC t => bind (tsc_frame values (index t) (columns t)) (fun u => Ok (TSC u))
      | PD t => bind (pd_frame values (index t) (columns t)) (fun u => Ok (PD u))
      | Array _ => Err AttributeError
      end
  end.

(** collection.py 535-576 [from_same_indices_as] *)
Definition from_same_indices_as (indices_from values : object) (except_index : option (list (Z * Z)))
    (except_columns : option (list string)) : result object :=
  match indices_from with
  | TSC _ => df_type_and_indices_from indices_from values except_index except_columns
  | _ => Err TypeError
  end.

End Model.
Arguments table : clear implicits.
Arguments object : clear implicits.
