(** * Vocabulary for the sampling interval of collections with floating point
      time values (C03). *)

From Coq Require Import List ZArith.
Import ListNotations.
From Verif Require Import Np TscModel TscSpec.
Local Open Scope Z_scope.

(** The time values of series [i] are [d] apart except for the first step, which may be longer. *)
Definition RegularAfterFirst {V : Type} (F : list (row V)) (i d : Z) : Prop :=
  let ts := times_of F i in
  (2 <= length ts)%nat /\
  d <= nth 1 ts 0 - nth 0 ts 0 /\
  (forall k, (1 <= k)%nat -> (S k < length ts)%nat -> nth (S k) ts 0 - nth k ts 0 = d).
