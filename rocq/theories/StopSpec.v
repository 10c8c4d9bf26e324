(** * Specification for C43. *)

From mathcomp Require Import all_ssreflect all_algebra.
Import GRing.Theory Num.Theory.
Set Implicit Arguments.
Unset Strict Implicit.
Unset Printing Implicit Defensive.
Local Open Scope ring_scope.

Section Spec.
Variable R : realDomainType.

(** The last [p] losses all exceed the smallest loss before them. *)
Definition Stagnates (p : nat) (l : seq R) : Prop :=
  exists a b, l = a ++ b /\ size b = p /\
    exists m, m \in a /\ (forall x, x \in a -> m <= x) /\ forall x, x \in b -> m < x.

(** [k] is the number of epochs: the first time at which [P] holds of the losses so far, or
    all of them. *)
Definition FirstTime (P : seq R -> Prop) (l : seq R) (k : nat) : Prop :=
  (k <= size l)%N /\ (forall k', (k' < k)%N -> ~ P (take k' l)) /\ (P (take k l) \/ k = size l).

(** Losses that grow by at most [d] per epoch. *)
Fixpoint SlowGrowth (d : R) (l : seq R) : Prop :=
  match l with
  | x :: ((y :: _) as l') => y <= x + d /\ SlowGrowth d l'
  | _ => True
  end.

End Spec.
