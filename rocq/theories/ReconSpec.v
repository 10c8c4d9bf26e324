(** * Specification of reconstructions. *)

From Coq Require Import List ZArith Bool Arith.
Import ListNotations.
From Verif Require Import Np TscModel TscSpec.
Open Scope Z_scope.

Section Spec.
Context {V : Type}.
Notation frame := (list (row V)).
Variable pred : list V -> Z -> V.

(** The reconstruction of series [i] from its own first [n] samples: one row per
    sample from the n-th on, with its original label; the state is predicted from
    the first [n] samples at the time elapsed since the n-th sample. *)
Definition reconstruction (F : frame) (n : nat) (i : Z) : frame :=
  map (fun r => mkRow i (rtime r)
                  (pred (map rval (firstn n (rows_of F i)))
                        (rtime r - nth (n - 1) (times_of F i) 0)))
      (skipn (n - 1) (rows_of F i)).

(** A series with a larger ID is never shorter. *)
Definition LengthsAscending (F : frame) : Prop :=
  forall i j, Occurs F i -> Occurs F j -> i < j -> (length (rows_of F i) <= length (rows_of F j))%nat.

(** Row [r] is the reconstruction of sample [q] of its own series from the first
    sample of that series. *)
Definition Reconstructs (F : frame) (r q : row V) : Prop :=
  In q F /\ rid r = rid q /\ rtime r = rtime q /\
  exists q0, hd_error (rows_of F (rid q)) = Some q0 /\
    rval r = pred [rval q0] (rtime q - rtime q0).

End Spec.
