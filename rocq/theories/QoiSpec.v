(** * Specification for C30 and C31. *)

From Coq Require Import List ZArith Sorting Permutation.
From Verif Require Import Np.
Import ListNotations.
Open Scope Z_scope.

(** Every returned column holds the data of the feature of that name, and the returned
    names are the requested ones in the requested order. *)
Definition CorrectSelection {D : Type} (all : list Z) (data : list D) (requested : list Z)
    (out : list (Z * D)) : Prop :=
  map fst out = requested /\ forall name d, In (name, d) out -> In (name, d) (combine all data).

(** The requested names appear in the order in which the model stores them. *)
Definition StorageOrder (all requested : list Z) : Prop :=
  exists keep : list bool, length keep = length all /\
    requested = map snd (filter fst (combine keep all)).

(** What is assumed of [np.argsort]: all positions once, values in increasing order. *)
Definition IsArgsort {K : Type} (le : K -> K -> Prop) (argsort : list K -> list nat) : Prop :=
  forall l, Permutation (argsort l) (seq 0 (length l)) /\
    forall i j a b x y, (i < j)%nat ->
      nth_error (argsort l) i = Some a -> nth_error (argsort l) j = Some b ->
      nth_error l a = Some x -> nth_error l b = Some y -> le x y.

(** numpy's order of complex numbers: real part first, then imaginary part. *)
Definition complex_le (x y : Z * Z) : Prop := fst x < fst y \/ (fst x = fst y /\ snd x <= snd y).

(** Square of the absolute value. *)
Definition abs2 (x : Z * Z) : Z := fst x * fst x + snd x * snd x.
