(** * Specification for C103. *)

From Coq Require Import String List ZArith.
From Verif Require Import DistModel DistSpec SelModel.
Import ListNotations.
Open Scope Z_scope.

(** The argument names one of the classes. *)
Definition Refers (a : backend_arg) (b : backend) : Prop :=
  a = Class b \/
  a = Name match b with
           | Brute => "brute" | KdTree => "scipy.kdtree" | BallTree => "sklearn.balltree"
           | Knn => "sklearn.knn" | Guess => "guess_optimal"
           end%string.

(** What is assumed about the neighbours of a point among the other points of a cloud. *)
Definition OthersOracle {P : Type} (d : P -> P -> Z) (f : list P -> nat -> nat -> list nat) : Prop :=
  forall X i k xi, nth_error X i = Some xi -> (k < List.length X)%nat ->
    List.length (f X i k) = k /\ NoDup (f X i k) /\ ~ In i (f X i k) /\
    (forall j, In j (f X i k) -> (j < List.length X)%nat) /\
    forall j l a b, In j (f X i k) -> ~ In l (f X i k) -> l <> i ->
      nth_error X j = Some a -> nth_error X l = Some b -> d a xi <= d b xi.

(** Exactly [k] entries per row. *)
Definition Exactly (k : nat) (rows : list (list (nat * Z))) : Prop :=
  forall row, In row rows -> List.length row = k.
