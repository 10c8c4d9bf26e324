(** * Specification for C32, C33, C34. *)

From Coq Require Import List ZArith.
Import ListNotations.
Open Scope Z_scope.

Section Spec.
Context {P : Type}.
Variable eu : P -> P -> Z.

(** The stored entries of row [i] of a sparse matrix. *)
Definition row_of (rows : list (list (nat * Z))) (i : nat) : list (nat * Z) := nth i rows [].

(** The matrix stores exactly the pairs (query i, reference j) for which [keep] holds, with
    value [value]. *)
Definition StoresExactly (X Y : list P) (keep : Z -> Prop) (value : Z -> Z)
    (rows : list (list (nat * Z))) : Prop :=
  length rows = length Y /\
  forall i y, nth_error Y i = Some y ->
    NoDup (map fst (row_of rows i)) /\
    forall j v, In (j, v) (row_of rows i) <->
      exists x, nth_error X j = Some x /\ keep (eu x y) /\ v = value (eu x y).

(** [S] are the positions of k nearest points of [y] in [X]. *)
Definition Nearest (X : list P) (y : P) (k : nat) (S : list nat) : Prop :=
  length S = k /\ NoDup S /\ (forall i, In i S -> (i < length X)%nat) /\
  forall i j a b, In i S -> ~ In j S -> nth_error X i = Some a -> nth_error X j = Some b -> eu a y <= eu b y.

(** What is assumed about the nearest neighbour query. *)
Definition KnnOracle (knn : list P -> P -> nat -> list nat) : Prop :=
  forall X y k, (k <= length X)%nat -> Nearest X y k (knn X y k).

(** Every row contains k nearest neighbours with the value of the metric, and every stored
    value is right. *)
Definition HasNearest (X Y : list P) (k : nat) (value : Z -> Z) (rows : list (list (nat * Z))) : Prop :=
  length rows = length Y /\
  forall i y, nth_error Y i = Some y ->
    (exists S, Nearest X y k S /\
       forall j, In j S -> exists x, nth_error X j = Some x /\ In (j, value (eu x y)) (row_of rows i))
    /\ (forall j v, In (j, v) (row_of rows i) -> exists x, nth_error X j = Some x /\ v = value (eu x y)).

(** [R] are the reference points of the last pair-wise call (without query points) of a
    history of calls, or of its first call if no call is pair-wise. *)
Definition ReferenceOf (calls : list (list P * option (list P))) (R : list P) : Prop :=
  exists before Y after, (calls = before ++ (R, Y) :: after) /\ (Y = None \/ before = []) /\
    forall c, In c after -> snd c <> None.

End Spec.
