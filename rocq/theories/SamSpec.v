(** * Specification of tables (C114) *)

From Coq Require Import String.
From Coq Require Import List ZArith.
Import ListNotations.
From Verif Require Import TscModel TscSpec SamModel.
Open Scope Z_scope.

(** The values have one row per entry of the index and one number per column. *)
Definition Fits {V} (values : list (list V)) (index : list (Z * Z)) (columns : list string) : Prop :=
  List.length values = List.length index /\ forall v, In v values -> List.length v = List.length columns.

(** An index of a time series collection (any values will do). *)
Definition ValidIndex (index : list (Z * Z)) : Prop := ValidRows (map (fun k => mkRow (fst k) (snd k) tt) index).

(** A table that is a time series collection. *)
Definition Collection {V} (t : table V) : Prop :=
  ValidIndex (t_index t) /\ NoDup (t_columns t) /\ Fits (t_values t) (t_index t) (t_columns t).

(** [v] is the value at series and time [k] in column [c]. *)
Definition Cell {V} (t : table V) (k : Z * Z) (c : string) (v : V) : Prop :=
  exists i j r, nth_error (t_index t) i = Some k /\ nth_error (t_columns t) j = Some c /\
                nth_error (t_values t) i = Some r /\ nth_error r j = Some v.
