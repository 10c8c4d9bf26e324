(** * Specification: the full state in the dictionary. *)

From Coq Require Import List ZArith Bool Arith.
Import ListNotations.
From Verif Require Import Np DictModel.
Open Scope Z_scope.

Section Spec.
Context {V : Type}.
Notation table := (@table V).

(** Unique names, unique labels, complete rows. *)
Record WfTable (T : table) : Prop := {
  wt_cols : NoDup (cols T);
  wt_keys : NoDup (keys T);
  wt_rows : forall r, In r (rows T) -> length (snd r) = length (cols T)
}.

(** [K'] lists some of the labels [K] in the same order. *)
Definition Selects (K K' : list (Z * Z)) : Prop :=
  exists keep : list bool, length keep = length K /\ K' = map snd (filter fst (combine keep K)).

(** A dictionary for data with the features [fin]: it keeps or drops samples and
    returns features with the given names. *)
Definition Dictionary (dict : table -> result table) (fin names : list Z) : Prop :=
  forall X D, WfTable X -> cols X = fin -> dict X = Ok D ->
  WfTable D /\ cols D = names /\ Selects (keys X) (keys D).

(** Feature [f] of the sample labelled [k] is [v]. *)
Definition Value (T : table) (k : Z * Z) (f : Z) (v : V) : Prop :=
  exists r, In (k, r) (rows T) /\ In (f, v) (combine (cols T) r).

(** A dictionary function named like a feature is that feature. *)
Definition KeepsValues (dict : table -> result table) (fin : list Z) : Prop :=
  forall X D k f v, WfTable X -> cols X = fin -> dict X = Ok D -> In f fin -> Value D k f v -> Value X k f v.

(** The samples of [X] with the labels of [D]. *)
Definition restricted (X D : table) : table :=
  mkTable (cols X) (filter (fun r => existsb (pair_eqb (fst r)) (keys D)) (rows X)).

(** The features among the names of the dictionary, in the order of the dictionary. *)
Definition kept (fin names : list Z) : list Z := filter (fun x => existsb (Z.eqb x) fin) names.

End Spec.

(** All features, or none of them, are among the names of the dictionary. *)
Definition all_in (fin names : list Z) : Prop := forall f, In f fin -> In f names.
Definition none_in (fin names : list Z) : Prop := forall f, In f fin -> ~ In f names.
