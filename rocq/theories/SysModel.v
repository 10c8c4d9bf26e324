(** * Linear dynamical systems: choice of the solver, set-up and evolution
      (proof-free).

    Source: datafold/dynfold/dynsystem.py (cited as dynsystem.py),
    datafold/utils/general.py 139-198 (general.py).

    Matrix arguments of the set-up functions are represented by their shape and an
    identity ([payload]); the set-up code looks at the shapes only.  The solvers act on
    states of an arbitrary type with the matrix products as parameters. *)

From Coq Require Import List ZArith Bool Arith.
From Verif Require Import Np.
Import ListNotations.

(** [sys_type], [sys_mode]: any string can be passed, [TOther] and [MOther] stand for all
    strings that are not listed. *)
Inductive stype := TDifferential | TFlowmap | TOther.
Inductive smode := MMatrix | MSpectral | MOther.

Definition stype_eqb (a b : stype) : bool :=
  match a, b with
  | TDifferential, TDifferential | TFlowmap, TFlowmap | TOther, TOther => true
  | _, _ => false
  end.
Definition smode_eqb (a b : smode) : bool :=
  match a, b with
  | MMatrix, MMatrix | MSpectral, MSpectral | MOther, MOther => true
  | _, _ => false
  end.

(** dynsystem.py 433-446: the arguments of [LinearDynamicalSystem.__init__]. *)
Record config := Config {
  c_type : stype; c_mode : smode; c_controlled : bool; c_affine : bool; c_invariant : bool }.

Inductive strategy :=
| differential_matrix | differential_matrix_controlled
| differential_matrix_controlled_affine | differential_spectral
| flowmap_matrix | flowmap_spectral
| flowmap_matrix_controlled | flowmap_spectral_controlled.

(** dynsystem.py 328-388 [select_strategy], branch by branch. *)
Definition select_strategy (c : config) : result strategy :=
  if negb (c_invariant c) then Err NotImplementedError
  else if stype_eqb (c_type c) TDifferential && smode_eqb (c_mode c) MSpectral
          && negb (c_controlled c) then Ok differential_spectral
  else if stype_eqb (c_type c) TDifferential && smode_eqb (c_mode c) MMatrix
          && negb (c_controlled c) then Ok differential_matrix
  else if stype_eqb (c_type c) TDifferential && smode_eqb (c_mode c) MMatrix
          && c_controlled c then Ok differential_matrix
  else if stype_eqb (c_type c) TFlowmap && smode_eqb (c_mode c) MSpectral
          && negb (c_controlled c) then Ok flowmap_spectral
  else if stype_eqb (c_type c) TFlowmap && smode_eqb (c_mode c) MMatrix
          && negb (c_controlled c) then Ok flowmap_matrix
  else if stype_eqb (c_type c) TFlowmap && smode_eqb (c_mode c) MMatrix
          && c_controlled c && negb (c_affine c) then Ok flowmap_matrix_controlled
  else if stype_eqb (c_type c) TFlowmap && smode_eqb (c_mode c) MSpectral
          && c_controlled c && negb (c_affine c) then Ok flowmap_spectral_controlled
  else if stype_eqb (c_type c) TDifferential && smode_eqb (c_mode c) MMatrix
          && c_controlled c && c_affine c then Ok differential_matrix_controlled_affine
  else Err ValueError.

(** dynsystem.py 433-471 [__init__] with [_check_system_type], [_check_system_mode]. *)
Definition new_system (c : config) : result strategy :=
  if stype_eqb (c_type c) TOther then Err ValueError
  else if smode_eqb (c_mode c) MOther then Err ValueError
  else select_strategy c.

(** ** evolution *)

Section Evolve.
Context {X W : Type}.

(** The matrix products of the solvers as functions on states: [k_A] and [k_B] multiply
    with the system and the control matrix, [k_exp t] with the matrix exponential of
    [A t], [k_pow s] with the power [s] of the matrix; [k_sexp], [k_spow], [k_out] and
    [k_rec] are the counterparts with the spectral components (the modes times the
    exponential, the power or the first power of the eigenvalues, see LinModel.v for the
    matrices).  [k_affine] is the numerical solution of the affine system by
    [solve_ivp].  Times are integers in units of [time_delta]. *)
Record parts := Parts {
  k_add : X -> X -> X;
  k_A : X -> X; k_B : W -> X;
  k_exp : Z -> X -> X; k_pow : Z -> X -> X;
  k_sexp : Z -> X -> X; k_spow : Z -> X -> X; k_out : X -> X; k_rec : X -> X;
  k_affine : X -> list W -> list Z -> list X }.

(** dynsystem.py 263-293 and 313-326: the loop over the time steps. *)
Fixpoint control_loop (f : X -> W -> X) (x : X) (us : list W) (n : nat) : list X :=
  match n, us with
  | S n', u :: us' => x :: control_loop f (f x u) us' n'
  | _, _ => [x]
  end.

(** dynsystem.py 23-326: the solvers.  [differential_matrix_controlled] (45-78) is not
    selected by [select_strategy] and not executable (np.vstack gets two arguments,
    np.linalg.expm does not exist): no result. *)
Definition solve_system (P : parts) (s : strategy) (x : X) (us : list W) (ts : list Z)
  : result (list X) :=
  match s with
  | differential_matrix => Ok (map (fun t => k_exp P t x) ts)
  | differential_spectral => Ok (map (fun t => k_sexp P t x) ts)
  | flowmap_matrix => Ok (map (fun t => k_pow P t x) ts)
  | flowmap_spectral => Ok (map (fun t => k_spow P t x) ts)
  | flowmap_matrix_controlled =>
      Ok (control_loop (fun x u => k_add P (k_A P x) (k_B P u)) x us (length ts - 1))
  | flowmap_spectral_controlled =>
      Ok (control_loop (fun x u => k_add P (k_rec P x) (k_B P u)) (k_out P x) us (length ts - 1))
  | differential_matrix_controlled_affine => Ok (k_affine P x us ts)
  | differential_matrix_controlled => Err TypeError
  end.

(** dynsystem.py 896-997 [evolve_system] for one initial condition, with the part of
    [_check_control_input] (486-521) that compares lengths; [req_last] is the class
    attribute [_requires_last_control_state]. *)
Definition evolve_system (c : config) (req_last : bool) (P : parts) (x : X) (us : list W)
    (ts : list Z) : result (list X) :=
  bind (new_system c) (fun s =>
  if c_controlled c && negb (length us + (if req_last then 0 else 1) =? length ts)%nat
  then Err ValueError
  else solve_system P s x us ts).

End Evolve.

(** ** set-up *)

Section Setup.
Context {P : Type}.

(** An argument of a set-up function: None, a numpy array with its shape, or anything
    else. *)
Inductive arg := ANone | AArray (shape : list nat) (payload : P) | AOther.

Definition is_none_arg (a : arg) : bool := match a with ANone => true | _ => false end.

(** general.py 139-173 [is_matrix] (handle="raise"). *)
Definition is_matrix (a : arg) : result unit :=
  match a with
  | AArray [_; _] _ => Ok tt
  | AArray _ _ => Err ValueError
  | _ => Err TypeError
  end.

(** general.py 176-198 [is_vector]. *)
Definition is_vector (a : arg) : result unit :=
  match a with
  | AArray [S _] _ => Ok tt
  | AArray _ _ => Err ValueError
  | _ => Err TypeError
  end.

Definition dim (i : nat) (a : arg) : option nat :=
  match a with AArray s _ => nth_error s i | _ => None end.

Definition opt_nat_eqb (a b : option nat) : bool :=
  match a, b with Some x, Some y => (x =? y)%nat | None, None => true | _, _ => false end.

Fixpoint shape_eqb (a b : list nat) : bool :=
  match a, b with
  | [], [] => true
  | x :: a', y :: b' => (x =? y)%nat && shape_eqb a' b'
  | _, _ => false
  end.

Definition shape (a : arg) : list nat := match a with AArray s _ => s | _ => [] end.

(** Attributes that are set by the set-up functions; None: not set. *)
Record sys_state := SysState {
  a_sys : option arg; a_control : option arg;
  a_right : option arg; a_values : option arg; a_left : option arg }.

Definition fresh : sys_state := SysState None None None None None.

Definition is_some {A : Type} (o : option A) : bool := match o with Some _ => true | None => false end.

(** dynsystem.py 690-703 [is_linear_system_setup]. *)
Definition is_setup (c : config) (st : sys_state) : bool :=
  if smode_eqb (c_mode c) MMatrix then is_some (a_sys st)
  else is_some (a_right st) && is_some (a_values st).

(** dynsystem.py 836-894 [setup_matrix_system]; the state is returned also if an
    exception is raised. *)
Definition setup_matrix_system (c : config) (st : sys_state) (A B : arg)
  : sys_state * result unit :=
  if is_setup c st then (st, Err RuntimeError)
  else match is_matrix A with
  | Err e => (st, Err e)
  | Ok _ =>
      let st := SysState (Some A) (a_control st) (a_right st) (a_values st) (a_left st) in
      if c_controlled c then
        let st := SysState (a_sys st) (Some B) (a_right st) (a_values st) (a_left st) in
        if negb (c_affine c) then
          match is_matrix B with
          | Err e => (st, Err e)
          | Ok _ => if opt_nat_eqb (dim 0 B) (dim 0 A) then (st, Ok tt) else (st, Err ValueError)
          end
        else
          match B with
          | AArray s _ =>
              if negb (length s =? 3)%nat then (st, Err ValueError)
              else if shape_eqb (firstn 2 s) (shape A) then (st, Ok tt) else (st, Err ValueError)
          | _ => (st, Err AttributeError)                 (* control_matrix.ndim, 878 *)
          end
      else if is_none_arg B then (st, Ok tt) else (st, Err ValueError)
  end.

(** dynsystem.py 780-834 [setup_spectral_system].  814: the check of the left
    eigenvectors is applied to the right ones again. *)
Definition setup_spectral_system (c : config) (st : sys_state) (V E L B : arg)
  : sys_state * result unit :=
  if negb (smode_eqb (c_mode c) MSpectral) then (st, Err RuntimeError)
  else match is_matrix V with
  | Err e => (st, Err e)
  | Ok _ =>
      match (if is_none_arg L then Ok tt else is_matrix V) with
      | Err e => (st, Err e)
      | Ok _ =>
          match is_vector E with
          | Err e => (st, Err e)
          | Ok _ =>
              if opt_nat_eqb (dim 0 E) (dim 1 V)
              then (SysState (a_sys st) (Some B) (Some V) (Some E) (Some L), Ok tt)
              else (st, Err ValueError)
          end
      end
  end.

Inductive call := CallMatrix (A B : arg) | CallSpectral (V E L B : arg).

Definition run_call (c : config) (st : sys_state) (k : call) : sys_state * result unit :=
  match k with
  | CallMatrix A B => setup_matrix_system c st A B
  | CallSpectral V E L B => setup_spectral_system c st V E L B
  end.

(** A history of set-up calls; the caller catches exceptions and goes on. *)
Fixpoint run_calls (c : config) (st : sys_state) (ks : list call) : sys_state * list (result unit) :=
  match ks with
  | [] => (st, [])
  | k :: ks' => let (st1, r) := run_call c st k in
                let (st2, rs) := run_calls c st1 ks' in (st2, r :: rs)
  end.

End Setup.
Arguments arg P : clear implicits.
Arguments sys_state P : clear implicits.
Arguments call P : clear implicits.
