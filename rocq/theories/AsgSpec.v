(** * Specification of assign_ids_const_delta. *)

From Coq Require Import List ZArith.
Import ListNotations.
From Verif Require Import Np TscModel.
Open Scope Z_scope.

Section Spec.
Context {V : Type}.
Notation series := (list (Z * V)).

(** At least two samples, all consecutive ones [d] apart. *)
Definition EquidistantBy (d : Z) (c : series) : Prop :=
  (2 <= length c)%nat /\ forall l a b r, c = l ++ a :: b :: r -> fst b - fst a = d.
Definition Equidistant (c : series) : Prop := exists d, EquidistantBy d c.

(** [cs] are disjoint contiguous parts of [l], in order. *)
Inductive CutFrom : series -> list series -> Prop :=
| cut_none : forall l, CutFrom l []
| cut_part : forall g c l cs, CutFrom l cs -> CutFrom (g ++ c ++ l) (c :: cs).

(** The collection with the series [cs] under the IDs k, k+1, ... *)
Fixpoint numbered (k : nat) (cs : list series) : list (row V) :=
  match cs with
  | [] => []
  | c :: cs' => map (fun p => mkRow (Z.of_nat k) (fst p) (snd p)) c ++ numbered (S k) cs'
  end.

(** Sample [p] is one of three consecutive samples with equal distances. *)
Definition InTriple (s : series) (p : Z * V) : Prop :=
  exists l a b c r, s = l ++ a :: b :: c :: r /\ fst b - fst a = fst c - fst b /\ In p [a; b; c].

End Spec.
