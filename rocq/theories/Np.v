(** * NumPy / pandas primitives used by the time series model (proof-free).

    Each definition gives the documented behaviour of one library call on
    one-dimensional data.  They are part of the trusted base: NumPy and pandas
    are not in /repo.  All definitions are total; where the library raises, the
    calling model checks the guard explicitly before using the definition. *)

From Coq Require Import List ZArith Bool Arith.
Import ListNotations.
Open Scope Z_scope.

(** Python exceptions as values.  The constructor names are the Python classes
    raised in /repo (TSCException: datafold/pcfold/timeseries/base.py). *)
Inductive err : Type :=
| AttributeError | ValueError | TypeError | IndexError | KeyError
| NotImplementedError | RuntimeError | AssertionError | ZeroDivisionError
| NameError | TSCException.

Inductive result (A : Type) : Type :=
| Ok (a : A)
| Err (e : err).
Arguments Ok {A} a.
Arguments Err {A} e.

Definition bind {A B : Type} (r : result A) (f : A -> result B) : result B :=
  match r with Ok a => f a | Err e => Err e end.

(** [np.diff l]: list of differences of neighbouring entries. *)
Definition np_diff (l : list Z) : list Z :=
  map (fun p => snd p - fst p) (combine l (tl l)).

(** [np.unique l]: sorted list of the distinct entries. *)
Fixpoint insert_u (x : Z) (l : list Z) : list Z :=
  match l with
  | [] => [x]
  | y :: r => if x <? y then x :: l
              else if x =? y then l
              else y :: insert_u x r
  end.

Definition np_unique (l : list Z) : list Z := fold_right insert_u [] l.

(** Number of occurrences; [np.unique(l, return_counts=True)[1]] is
    [map (np_count l) (np_unique l)]. *)
Definition np_count (l : list Z) (x : Z) : nat :=
  length (filter (Z.eqb x) l).

(** Positions [0, 1, ..., len-1] paired with the entries. *)
Definition enumerate {A : Type} (l : list A) : list (nat * A) :=
  combine (seq 0 (length l)) l.

(** Keep the entries whose position satisfies [P] (order kept). *)
Definition pick {A : Type} (P : nat -> bool) (l : list A) : list A :=
  map snd (filter (fun p => P (fst p)) (enumerate l)).

(** [np.delete(l, idx, axis=0)]. *)
Definition np_delete {A : Type} (l : list A) (idx : list nat) : list A :=
  pick (fun i => negb (existsb (Nat.eqb i) idx)) l.

(** [l[start::step]] for [step >= 1]. *)
Definition slice_step {A : Type} (start step : nat) (l : list A) : list A :=
  pick (fun i => (start <=? i)%nat && (((i - start) mod step) =? 0)%nat) l.

(** Boolean mask indexing [l[mask]] (mask and l of the same length). *)
Definition mask_select {A : Type} (mask : list bool) (l : list A) : list A :=
  map snd (filter (fun p => fst p) (combine mask l)).

(** [np.cumsum]. *)
Fixpoint cumsum_from (acc : nat) (l : list nat) : list nat :=
  match l with
  | [] => []
  | x :: r => (acc + x)%nat :: cumsum_from (acc + x)%nat r
  end.
Definition np_cumsum (l : list nat) : list nat := cumsum_from 0 l.

(** [np.reshape(l, (rows, k))] in C order. *)
Fixpoint reshape {A : Type} (rows k : nat) (l : list A) : list (list A) :=
  match rows with
  | O => []
  | S r => firstn k l :: reshape r k (skipn k l)
  end.

(** [np.tile(l, k)]. *)
Fixpoint np_tile {A : Type} (l : list A) (k : nat) : list A :=
  match k with O => [] | S k' => l ++ np_tile l k' end.

(** [np.repeat(l, k)] for one repetition count. *)
Definition np_repeat {A : Type} (l : list A) (k : nat) : list A :=
  flat_map (fun x => repeat x k) l.

(** [np.arange(n)] as integers. *)
Definition np_arange (n : nat) : list Z := map Z.of_nat (seq 0 n).

(** [pd.Index.duplicated().any()] for an index of pairs. *)
Definition pair_eqb (p q : Z * Z) : bool :=
  (fst p =? fst q) && (snd p =? snd q).

Fixpoint has_dup (l : list (Z * Z)) : bool :=
  match l with
  | [] => false
  | p :: r => existsb (pair_eqb p) r || has_dup r
  end.
