(** * Specification of feature scaling (C107) *)

From Coq Require Import String List ZArith.
From mathcomp Require Import all_ssreflect all_algebra.
From Verif Require Import Np ScaModel.
Import Order.Theory GRing.Theory Num.Theory.
Set Implicit Arguments.
Unset Strict Implicit.
Unset Printing Implicit Defensive.
Local Open Scope ring_scope.

Section Spec.
Variable R : rcfType.
Variable I : Type.

(** The value in row [i] of feature [j]. *)
Definition cell (X : table R I) (i j : nat) : R := nth 0 (nth [::] (cols X) j) i.

(** Data with [n] rows and [d] features, at least one of each: all columns have [n] values; a
    frame has one label for every row and column, an array has none. *)
Definition Shape (n d : nat) (X : table R I) : Prop :=
  (0 < n)%N /\ (0 < d)%N /\ size (cols X) = d /\ (forall c, List.In c (cols X) -> size c = n) /\
  match kind X with
  | NumpyArray => index X = [::] /\ cnames X = [::]
  | _ => size (index X) = n /\ size (cnames X) = d
  end.

(** A frame whose column labels are strings. *)
Definition StringFrame (X : table R I) : Prop :=
  kind X <> NumpyArray /\ (forall a, List.In a (cnames X) -> exists s, a = Str s).

(** ... or numbers. *)
Definition NumberNames (X : table R I) : Prop := forall a, List.In a (cnames X) -> exists z, a = Num z.

(** The rows at the given positions, in this order. *)
Definition pick {A : Type} (l : seq nat) (s : seq A) : seq A := pmap (fun i => List.nth_error s i) l.
Definition take_rows (l : seq nat) (X : table R I) : table R I :=
  Table (kind X) (pick l (index X)) (cnames X) (map (pick l) (cols X)).

(** Average and mean squared deviation of [n] numbers. *)
Definition average (n : nat) (f : nat -> R) : R := (n%:R)^-1 * \sum_(i < n) f i.
Definition spread (n : nat) (f : nat -> R) : R := average n (fun i => (f i - average n f) ^+ 2).

End Spec.
