(** * Specification for C102, by entries of the objects. *)

From Coq Require Import List Bool Arith.
From Verif Require Import Np KgModel.
Import ListNotations.
Open Scope nat_scope.

Section Spec.
Context {V T L A M : Type}.
Variable zero : V.

(** The entry for feature [i] at time [j], and the number of features and times: frames have one
    row per time, arrays one row per feature; a vector is one time. *)
Definition cell (o : object V T) (i j : nat) : V :=
  match o with
  | Ndarray _ _ (D1 _) d => nth i d zero
  | Ndarray _ _ (D2 _ c) d => nth (i * c + j) d zero
  | Frame _ _ _ c _ d => nth (j * c + i) d zero
  end.

Definition dims (o : object V T) : nat * nat :=
  match o with
  | Ndarray _ _ (D1 n) _ => (n, 1)
  | Ndarray _ _ (D2 r c) _ => (r, c)
  | Frame _ _ r c _ _ => (c, r)
  end.

Definition Wf (o : object V T) : Prop :=
  match o with
  | Ndarray _ _ (D1 n) d => length d = n
  | Ndarray _ _ (D2 r c) d => length d = r * c
  | Frame _ _ r c _ d => length d = r * c
  end.

Definition State (o : object V T) (n : nat) (x : list V) : Prop :=
  length x = n /\ forall i, i < n -> nth i x zero = cell o i 0.

(** The reference with the initial state at the first time. *)
Definition Target (o reference : object V T) (n h : nat) (xr : list V) : Prop :=
  length xr = n * (h + 1) /\
  forall i k, i < n -> k <= h ->
    nth (i * (h + 1) + k) xr zero = if k =? 0 then cell o i 0 else cell reference i k.

(** A search against a function. *)
Fixpoint interact (s : search V A) (f : list V -> result A) : result (list V) :=
  match s with
  | Done _ _ u => Ok u
  | Ask _ _ u next => match f u with Ok a => interact (next a) f | Err e => Err e end
  end.

(** [U] has one row per time but the last, one column per input; the vector [u] lists the times of
    the first input, then those of the second, and so on. *)
Definition Signal (m h : nat) (u : list V) (U : list (list V)) : Prop :=
  length U = h /\
  forall k, k < h -> length (nth k U []) = m /\
    forall i, i < m -> nth i (nth k U []) zero = nth (i * (h + 1) + k) u zero.

(** No object is overwritten in place after it was an initial condition. *)
Fixpoint Kept (used : list nat) (l : list (action V T M)) : Prop :=
  match l with
  | [] => True
  | Create _ _ _ o :: r => Wf o /\ Kept used r
  | Overwrite _ _ _ x _ :: r => ~ In x used /\ Kept used r
  | Control _ _ _ ic _ _ _ :: r => Kept (ic :: used) r
  end.

(** Any order of actions, well-formed objects. *)
Definition Proper (l : list (action V T M)) : Prop :=
  forall o, In (Create _ _ _ o) l -> Wf o.

End Spec.
