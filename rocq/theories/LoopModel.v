(** * Model of the closed control loop (proof-free).

    Source: datafold/appfold/mpc.py 367-485 [control_sequence_horizon] and 487-573
    [control_system_reference] (cited as mpc.py).

    States of the plant have type [S], samples of the EDMD model type [V], their
    dictionary representation type [L], controls type [C] and references type [R].

    Simplifications
    - times are integers, and the comparison of the first reference time with the time
      of the state (mpc.py 426) is exact;
    - [lift] stands for [edmd.transform], [solve] for the call of the QP solver (446-459,
      see C26): it maps the state and the reference values to one control per step of
      the horizon, or to None;
    - [plant] stands for the function [sys]; only the first part of its result is used;
    - [features] selects the columns of the EDMD model from a state and, if attached,
      a control input (mpc.py 554-557); a missing column is not modelled;
    - the reference has the right number of columns. *)

From Coq Require Import List ZArith Bool Arith.
Import ListNotations.
From Verif Require Import Np TscModel AccModel BldModel.
Open Scope Z_scope.

Section Model.
Context {S V L C R : Type}.
Variable kind : tkind.                                 (** dtype kind of the times *)
Variable lift : list (row V) -> result (list (row L)).
Variable solve : L -> list R -> option (list C).
Variable plant : list (row S) -> list (row C) -> list Z -> result (list (row S)).
Variable features : S -> option C -> V.
Variable n_ic : nat.     (** edmd.n_samples_ic_ *)
Variable dt : Z.         (** edmd.dt_ *)
Variable horizon : nat.

(** [df.iloc[i:j, :]] and [df.iloc[-n:, :]] for 0 < n. *)
Definition iloc_slice {A} (i j : nat) (F : list A) : list A := firstn (j - i) (skipn i F).
Definition iloc_tail {A} (n : nat) (F : list A) : list A := skipn (length F - n) F.

(** mpc.py 411-485. *)
Definition control_sequence_horizon (X : list (row V)) (reference : list (row R)) : result (list (row C)) :=
  bind (lift X) (fun D =>
  match D with
  | [z] =>
      let t_ic := hd 0 (time_values D) in
      let t_ref := hd 0 (time_values reference) in
      if negb (t_ic + dt =? t_ref) then Err ValueError
      else if negb (length reference =? horizon)%nat then Err ValueError
      else match solve (rval z) (to_numpy reference) with
      | None => Err ValueError
      | Some U => from_array U (Some (t_ic :: removelast (time_values reference))) None
      end
  | _ => Err ValueError
  end).

(** mpc.py 524-531. *)
Definition reference_window (X_ref : list (row R)) (i : nat) : result (list (row R)) :=
  let ref := iloc_slice i (i + horizon) X_ref in
  if negb (length ref =? horizon)%nat then fill_timeseries_with_last_state kind horizon ref else Ok ref.

(** mpc.py 553-557; the control input is attached by its index. *)
Definition edmd_rows (augment : bool) (state : list (row S)) (U_next : list (row C)) : result (list (row V)) :=
  if augment then
    bind (augment_control_input state U_next) (fun A =>
    Ok (map (fun r => mkRow (rid r) (rtime r) (features (fst (rval r)) (snd (rval r)))) (iloc_tail 1 A)))
  else Ok (map (fun r => mkRow (rid r) (rtime r) (features (rval r) None)) state).

(** mpc.py 522-571: the loop over the remaining indices.  [U_seq] is None before the
    first step; [pd.concat] drops None. *)
Fixpoint control_loop (augment : bool) (X_ref : list (row R)) (todo : list nat)
    (sys_seq : list (row S)) (X_seq : list (row V)) (U_seq : option (list (row C)))
    : result (list (row S) * option (list (row C))) :=
  match todo with
  | [] => Ok (sys_seq, U_seq)
  | i :: todo =>
      bind (reference_window X_ref i) (fun ref =>
      bind (control_sequence_horizon (iloc_tail n_ic X_seq) ref) (fun ukmpc =>
      let U_next := firstn 1 ukmpc in
      let time_values := [hd 0 (time_values U_next); hd 0 (time_values ref)] in
      match plant (iloc_tail 1 sys_seq) U_next time_values with
      | Err RuntimeError => Ok (sys_seq, U_seq)
      | Err e => Err e
      | Ok state =>
          bind (edmd_rows augment state U_next) (fun edmd_state =>
          bind (tsc (sys_seq ++ iloc_tail 1 state)) (fun sys_seq =>
          bind (match U_seq with None => Ok U_next | Some U => tsc (U ++ U_next) end) (fun U_seq =>
          bind (tsc (X_seq ++ edmd_state)) (fun X_seq =>
          control_loop augment X_ref todo sys_seq X_seq (Some U_seq)))))
      end))
  end.

(** mpc.py 487-573. *)
Definition control_system_reference (augment : bool) (sys_ic : list (row S)) (X_ref : list (row R)) (X_ic : list (row V))
  : result (list (row S) * option (list (row C))) :=
  control_loop augment X_ref (seq 0 (length X_ref - 1)) sys_ic X_ic None.

End Model.
