(** * Specification: closed loop with a receding horizon. *)

From Coq Require Import List ZArith.
Import ListNotations.
From Verif Require Import Np TscModel.
Open Scope Z_scope.

(** A series with ID 0 that starts at time [t] and is sampled with [d]. *)
Fixpoint sampled {A} (t d : Z) (l : list A) : list (row A) :=
  match l with
  | [] => []
  | v :: r => mkRow 0 t v :: sampled (t + d) d r
  end.

(** The next [h] values; the last value is repeated at the end. *)
Definition window {A} (h : nat) (l : list A) : list A :=
  firstn h l ++ match rev l with v :: _ => repeat v (h - length l) | [] => [] end.

(** The last [n] values. *)
Definition latest {A} (n : nat) (l : list A) : list A := skipn (length l - n) l.

Section Spec.
Context {S V C R : Type}.
Variable plan : list V -> list R -> option (list C).  (** optimal controls over the horizon *)
Variable step : S -> C -> option S.                   (** the plant; None: it terminates *)
Variable observe : S -> C -> V.                       (** what the model sees of state and control *)
Variable n : nat.
Variable h : nat.

(** Controls and states of the first [m] steps of the closed loop for the reference
    values to come: in each step the first control of the plan for the next [h]
    reference values is applied.  None: no plan was found. *)
Fixpoint closed_loop (m : nat) (s : S) (past : list V) (refs : list R) : option (list (C * S)) :=
  match m with
  | O => Some []
  | Datatypes.S m' =>
      match plan (latest n past) (window h refs) with
      | None | Some [] => None
      | Some (u :: _) =>
          match step s u with
          | None => Some []
          | Some s' =>
              match closed_loop m' s' (past ++ [observe s' u]) (tl refs) with
              | None => None
              | Some l => Some ((u, s') :: l)
              end
          end
      end
  end.
End Spec.

(** What is assumed of the parts the loop calls.  The transformation of [n] samples
    yields one sample at the last of their times. *)
Definition Lifts {V L} (lift : list (row V) -> result (list (row L))) (repr : list V -> L) (n : nat) (d : Z) : Prop :=
  forall t l, 0 <= t -> length l = n ->
  lift (sampled t d l) = Ok [mkRow 0 (t + (Z.of_nat n - 1) * d) (repr l)].

(** The solver returns one control per step of the horizon, if it returns any. *)
Definition Plans {L C R} (solve : L -> list R -> option (list C)) (h : nat) : Prop :=
  forall z refs U, length refs = h -> solve z refs = Some U -> length U = h.

(** The plant returns the given state and the next one, at the two given times, or
    terminates with RuntimeError. *)
Definition Plant {S C} (plant : list (row S) -> list (row C) -> list Z -> result (list (row S))) (step : S -> C -> option S) : Prop :=
  forall i s j u t t',
  plant [mkRow i t s] [mkRow j t u] [t; t'] =
  match step s u with
  | Some s' => Ok [mkRow i t s; mkRow i t' s']
  | None => Err RuntimeError
  end.
