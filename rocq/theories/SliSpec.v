(** * Specification of slices (C113) *)

From Coq Require Import List ZArith.
Import ListNotations.
Open Scope Z_scope.

(** Position [i] of [n] positions lies in the slice [start:stop]; a negative number counts from the end. *)
Definition InSlice (n : Z) (start stop : option Z) (i : Z) : Prop :=
  match start with None => True | Some k => if k <? 0 then k + n <= i else k <= i end /\
  match stop with None => True | Some k => if k <? 0 then i < k + n else i < k end.

(** [l] is [a ++ b ++ c] where [b] are the elements at the positions of the slice. *)
Definition Cut {A} (start stop : option Z) (l a b c : list A) : Prop :=
  l = a ++ b ++ c /\
  forall i, 0 <= i < Z.of_nat (length l) ->
    (InSlice (Z.of_nat (length l)) start stop i <-> Z.of_nat (length a) <= i < Z.of_nat (length a + length b)).
