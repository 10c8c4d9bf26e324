(** * Specification for C38: what a user expects from a history of calls. *)

From Coq Require Import List Sorting.Permutation Sorting.Sorted.
From Verif Require Import Np RefitModel.
Import ListNotations.

Section Spec.
Variable D : Type.
Notation op := (op D).

(** The training data of a history: those of the last call of fit. *)
Fixpoint last_fit (h : list op) : option D :=
  match h with
  | [] => None
  | o :: h' => match last_fit h' with
               | Some x => Some x
               | None => match o with Fit x => Some x | _ => None end
               end
  end.

(** The coordinates selected last (accepted are non-empty lists of indices below [n]). *)
Fixpoint last_coords (n : nat) (h : list op) : option (list nat) :=
  match h with
  | [] => None
  | o :: h' => match last_coords n h' with
               | Some c => Some c
               | None => match o with
                         | SetTargetCoords c =>
                             match c with
                             | [] => None
                             | _ => if forallb (fun i => Nat.ltb i n) c then Some c else None
                             end
                         | _ => None
                         end
               end
  end.

(** Ascending order of the selected coordinates. *)
Definition ascending (c c' : option (list nat)) : Prop :=
  match c, c' with
  | None, None => True
  | Some l, Some l' => Permutation l l' /\ Sorted le l'
  | _, _ => False
  end.

(** Number of embedding coordinates. *)
Definition n_coords (n : nat) (h : list op) : nat :=
  match last_coords n h with Some c => length c | None => n end.

(** Calls that neither select coordinates nor compute pre-images. *)
Definition fit_or_transform (o : op) : Prop :=
  match o with Fit _ => True | Transform _ => True | _ => False end.

Definition no_inverse (o : op) : Prop :=
  match o with InverseTransform _ => False | _ => True end.

(** All data passed to fit satisfy [P]. *)
Definition fits (P : D -> Prop) (h : list op) : Prop :=
  forall x, In (Fit x) h -> P x.

End Spec.
