(** * Specification: building, expanding, shifting and tabulating collections. *)

From Coq Require Import List ZArith Bool Arith Sorted Permutation.
Import ListNotations.
From Verif Require Import Np TscModel TscSpec BldModel.
Open Scope Z_scope.

Section Spec.
Context {V : Type}.
Notation frame := (list (row V)).

(** [l] lists the IDs in the order in which the series are stored. *)
Definition StorageOrder (F : frame) (l : list Z) : Prop :=
  NoDup l /\ (forall i, In i l <-> Occurs F i) /\ F = flat_map (rows_of F) l.

(** The entry of a table in the row labelled [i] and the column labelled [t]. *)
Definition Entry (M : @table V) (i t : Z) (v : V) : Prop :=
  exists a b s, nth_error (t_index M) a = Some i /\ nth_error (t_columns M) b = Some t /\
                nth_error (t_array M) a = Some s /\ nth_error s b = Some v.

(** The largest time of a collection. *)
Definition Latest (F : frame) (t : Z) : Prop :=
  (exists r, In r F /\ rtime r = t) /\ (forall r, In r F -> rtime r <= t).

(** The series given by (time, value) pairs can be stored under ID [i]. *)
Definition GoodPairs (i : Z) (s : list (Z * V)) : Prop :=
  0 <= i /\ s <> [] /\ NoDup (map fst s) /\ (forall t, In t (map fst s) -> 0 <= t).

(** The (time, value) pairs of series [i]. *)
Definition pairs_of (F : frame) (i : Z) : list (Z * V) :=
  map (fun r => (rtime r, rval r)) (rows_of F i).

(** The time series in an element of a list: a single one, or those of a
    collection in the order of their IDs. *)
Definition Parts (x : @item V) (l : list (list (Z * V))) : Prop :=
  match x with
  | Single s => l = [s]
  | Collection F => exists is, StronglySorted Z.lt is /\ (forall i, In i is <-> Occurs F i) /\
                               l = map (pairs_of F) is
  end.

(** ... of all elements, one after the other. *)
Definition AllParts (xs : list item) (l : list (list (Z * V))) : Prop :=
  exists ls, Forall2 Parts xs ls /\ l = concat ls.

(** Series [i] of [F] is series [i] of [G] with all times moved by [s]. *)
Definition Moved (F G : frame) (i s : Z) : Prop :=
  rows_of G i = map (fun r => mkRow (rid r) (rtime r + s) (rval r)) (rows_of F i).

(** The collection with every time moved by [s]. *)
Definition AllMoved (F G : frame) (s : Z) : Prop :=
  Forall2 (fun r q => rid q = rid r /\ rtime q = rtime r + s /\ rval q = rval r) F G.

End Spec.
