(** * Specification of the time delay embedding. *)

From Coq Require Import List ZArith Bool Arith.
Import ListNotations.
From Verif Require Import TscModel TscSpec.
Close Scope Z_scope.
Open Scope nat_scope.

Section Spec.
Context {E : Type}.
Variable mul : E -> E -> E.

(** Features of the sample at position [p] of a series. *)
Definition sample (s : list (row (list E))) (p : nat) : list E :=
  match nth_error s p with Some r => rval r | None => [] end.

Definition scaled (decay : option (nat -> E)) (j : nat) (x : list E) : list E :=
  match decay with None => x | Some g => map (fun a => mul a (g j)) x end.

(** Embedded features at position [t]: the sample itself, then for j = 1..delays
    the sample [lag + 1 + (j-1) * frequency] positions earlier, times decay(j). *)
Definition embedded_at (lag delays frequency : nat) (decay : option (nat -> E))
    (s : list (row (list E))) (t : nat) : list E :=
  sample s t ++
  flat_map (fun j => scaled decay j (sample s (t - (lag + 1 + (j - 1) * frequency)))) (seq 1 delays).

(** The embedded series: one row for every position from the largest delay on,
    with ID and time of that position. *)
Definition embedded (lag delays frequency : nat) (decay : option (nat -> E))
    (s : list (row (list E))) : list (row (list E)) :=
  let first := lag + 1 + (delays - 1) * frequency in
  flat_map (fun t => match nth_error s t with
                     | Some r => [mkRow (rid r) (rtime r) (embedded_at lag delays frequency decay s t)]
                     | None => [] end)
           (seq first (length s - first)).

(** All rows have [nf] features. *)
Definition Width (nf : nat) (F : list (row (list E))) : Prop :=
  forall r, In r F -> length (rval r) = nf.

End Spec.
