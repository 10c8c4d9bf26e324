(** * Specification for StreamingDMD *)

From Coq Require Import List ZArith Permutation.
From Verif Require Import Np TscModel TscSpec.
Import ListNotations.
Open Scope Z_scope.

(** A choice of directions that keeps the ones with the largest eigenvalues: no dropped
    direction has a larger eigenvalue than a kept one. *)
Definition KeepsLargest {K D : Type} (leb : K -> K -> bool) (all kept : list (K * D)) : Prop :=
  exists dropped, Permutation all (kept ++ dropped)
    /\ forall a b, In a kept -> In b dropped -> leb (fst b) (fst a) = true.

Definition KeepsSmallest {K D : Type} (leb : K -> K -> bool) (all kept : list (K * D)) : Prop :=
  exists dropped, Permutation all (kept ++ dropped)
    /\ forall a b, In a kept -> In b dropped -> leb (fst a) (fst b) = true.
