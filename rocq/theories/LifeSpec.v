(** * Specification: life cycle of an EDMD object. *)

From Coq Require Import List Bool.
Import ListNotations.
From Verif Require Import Np LifeModel.

(** The arguments of the call are accepted. *)
Definition accepted (c : call) : bool :=
  match data_error c with
  | Some _ => false
  | None => if partial c then negb (with_y c) && negb (with_U c) else true
  end.

(** The kind of the first call with acceptable arguments ([Some true] for
    [partial_fit]), whether it succeeded or not. *)
Fixpoint first_kind (h : list call) : option bool :=
  match h with
  | [] => None
  | c :: h' => if accepted c then Some (partial c) else first_kind h'
  end.
