(** * Specification of the windowed reconstruction. *)

From Coq Require Import List ZArith Bool Arith Sorted.
Import ListNotations.
From Verif Require Import Np TscModel TscSpec.
Open Scope Z_scope.

Section Spec.
Context {V : Type}.
Notation frame := (list (row V)).
Variable pred : list V -> Z -> V.

(** [ws] lists the windows of [w] samples that start at the positions 0, o, 2o, ...
    of every series, series by series in the order of their IDs. *)
Definition Windows (F : frame) (w o : nat) (ws : list frame) : Prop :=
  exists is, StronglySorted Z.lt is /\ (forall i, In i is <-> Occurs F i) /\
             ws = flat_map (fun i => full_windows w o (rows_of F i)) is.

(** The rows of window number [k]. *)
Definition labelled (k : nat) (W : frame) : frame :=
  map (fun r => mkRow (Z.of_nat k) (rtime r) (rval r)) W.

(** The prediction of window number [k] from its own first [n] samples: one row for
    every sample from the n-th on, at the time of that sample. *)
Definition window_prediction (n k : nat) (W : frame) : frame :=
  map (fun r => mkRow (Z.of_nat k) (rtime r)
                  (pred (map rval (firstn n W)) (rtime r - nth (n - 1) (map rtime W) 0)))
      (skipn (n - 1) W).

End Spec.
