(** * Specification for C49. *)

From Coq Require Import List QArith Sorting.Permutation Sorting.Sorted.
From Verif Require Import LrsModel.
Import ListNotations.
Local Open Scope nat_scope.

(** Order of numpy's sorting functions: nan is the largest value. *)
Definition np_le (a b : res) : Prop :=
  match a, b with
  | _, NaN => True
  | NaN, Val _ => False
  | Val p, Val q => (p <= q)%Q
  end.

(** np.argpartition(l, k): a permutation of the positions such that no value before position
    [k] is larger than a value from position [k] on. *)
Definition Partitions (part : list res -> nat -> list nat) : Prop :=
  forall l k, (k < length l)%nat ->
    Permutation (part l k) (seq 0 (length l)) /\
    forall i j, In i (firstn k (part l k)) -> In j (skipn k (part l k)) ->
      np_le (nth i l NaN) (nth j l NaN).

(** The residual of coordinate [i >= 1]: the first non-trivial one has residual 1. *)
Definition residual (regress : nat -> res) (i : nat) : res := if i =? 1 then Val 1 else regress i.

(** All residuals are numbers that are not negative. *)
Definition Regular (regress : nat -> res) (n : nat) : Prop :=
  forall i, 2 <= i < n -> exists q, regress i = Val q /\ (0 <= q)%Q.

Definition nans (regress : nat -> res) (n : nat) : list nat :=
  filter (fun i => match regress i with NaN => true | _ => false end) (seq 2 (n - 2)).
