(** * Specification of joined transformations (C112) *)

From Coq Require Import String.
From Coq Require Import List ZArith Bool.
Import ListNotations.
From Verif Require Import TscModel.
Open Scope Z_scope.

Section Spec.
Context {V : Type}.
Variable isna : V -> bool.
Notation rows := (list (row (list V))).

(** [r] has the values of all parts at its own series and time, none of them NaN. *)
Definition Joined (Fs : list rows) (r : row (list V)) : Prop :=
  exists vs, Forall2 (fun F v => In (mkRow (rid r) (rtime r) v) F /\ forall x, In x v -> isna x = false) Fs vs /\
             rval r = concat vs.

(** No series has two rows at one time. *)
Definition UniqueKeys (F : rows) : Prop := NoDup (map (fun r => (rid r, rtime r)) F).

(** Sorted by ID and then by time. *)
Definition Earlier (a b : row (list V)) : Prop := rid a < rid b \/ rid a = rid b /\ rtime a < rtime b.

(** The value of column [c] in every row of a frame with the columns [names] (first column of that name). *)
Fixpoint value_of (names : list string) (v : list V) (c : string) : option V :=
  match names, v with
  | x :: names', y :: v' => if string_dec x c then Some y else value_of names' v' c
  | _, _ => None
  end.

(** Two frames have the same rows as far as the columns [cs] are concerned. *)
Definition SameColumns (cs : list string) (names names' : list string) (X X' : rows) : Prop :=
  Forall2 (fun r r' => rid r = rid r' /\ rtime r = rtime r' /\ forall c, In c cs -> value_of names (rval r) c = value_of names' (rval r') c) X X'.

End Spec.
