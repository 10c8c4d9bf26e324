(** * Model of generator identification from sampled time series (proof-free).

    Source: datafold/dynfold/dmd.py (cited as dmd.py): [gDMDFull], [gDMDAffine].

    States are row vectors with real entries, time values are multiples of [unit].
    [table] are findiff's coefficients (see DerModel.v) and [lstsq] is numpy's least squares
    routine (see LinModel.v). *)

From Coq Require Import List ZArith Bool.
From mathcomp Require Import all_ssreflect all_algebra.
From Verif Require Import Np TscModel ChkModel WinModel LinModel GenModel DerModel DerSpec.
Import Order.Theory GRing.Theory Num.Theory.
Set Implicit Arguments.
Unset Strict Implicit.
Unset Printing Implicit Defensive.
Local Open Scope ring_scope.

(** Keyword arguments of the finite difference scheme given by the user; [None]: not given. *)
Record fd_kwargs := FdKwargs {
  kw_scheme : option scheme;
  kw_diff_order : option nat;
  kw_accuracy : option nat;
  kw_shift_index : option bool
}.

Definition orelse {A : Type} (o : option A) (a : A) : A := if o is Some x then x else a.

(** dmd.py 1451-1465 [_generate_fd_kwargs] and the default of [scheme] in accessor.py 706: the
    parameters (scheme, accuracy, shift_index) of the derivative; its order is 1. *)
Definition generate_fd_kwargs (kw : option fd_kwargs) : result (scheme * nat * bool) :=
  let kw := orelse kw (FdKwargs None None None None) in
  if negb (Nat.eqb (orelse (kw_diff_order kw) 1%N) 1%N) then Err ValueError
  else Ok (orelse (kw_scheme kw) center, orelse (kw_accuracy kw) 2%N, orelse (kw_shift_index kw) false).

Section Model.
Variables (R : realFieldType) (n : nat) (unit : R).
Variable table : scheme -> nat -> nat -> seq (Z * R).
Variable lstsq : lstsq_t R.
Notation frame := (list (row 'rV[R]_n)).

(** [to_numpy()] as a matrix with [s] rows. *)
Definition values_matrix m (s : nat) (F : list (row 'rV[R]_m)) : 'M[R]_(s, m) :=
  \matrix_(i < s) List.nth i (List.map rval F) 0.

(** accessor.py 704-824 [time_derivative] of first order, see DerModel.v. *)
Definition first_derivative (k : tkind) (s : scheme) (accuracy : nat) (shift_index : bool) (F : frame) : result frame :=
  time_derivative 0 (fun acc w x => acc + w *: x) (fun order d x => (unit * number R d) ^- order *: x) table
                  k s 1 accuracy shift_index F.

(** dmd.py 1497-1510: validation (1497-1502, C74), time derivatives and the states at the same labels. *)
Definition gdmd_data (k : tkind) (kw : option fd_kwargs) (F : frame) : result (frame * frame) :=
  bind (check_const_time_delta k F) (fun _ =>
  bind (fit_attrs k false F (None : option (list (row Datatypes.unit)))) (fun _ =>
  bind (generate_fd_kwargs kw) (fun p =>
  bind (first_derivative k p.1.1 p.1.2 p.2 F) (fun G =>
  bind (loc_index F (index G)) (fun X => Ok (X, G)))))).

(** dmd.py 1467-1543 [gDMDFull.fit]: the generator matrix (the system matrix in matrix mode; in
    spectral mode its eigendecomposition is set up, see C19 and C20). *)
Definition gdmd_fit (k : tkind) (kw : option fd_kwargs) (F : frame) : result 'M[R]_n :=
  bind (gdmd_data k kw F) (fun p =>
  Ok (koopman_generator lstsq (values_matrix (length p.2) p.1) (values_matrix (length p.2) p.2))).

(** dmd.py 1795-1806 of [gDMDAffine]: states, control input and derivatives.  The states and
    controls are selected by time value only.  With a different number of rows the products in
    1829-1832 fail. *)
Definition affine_data q (k : tkind) (s : scheme) (accuracy : nat) (F : frame) (U : list (row 'rV[R]_q))
  : result (frame * list (row 'rV[R]_q) * frame) :=
  bind (check_const_time_delta k F) (fun _ =>
  bind (fit_attrs k true F (Some U)) (fun _ =>
  bind (first_derivative k s accuracy false F) (fun G =>
  let X := select_times F (time_values G) in
  let V := select_times U (time_values G) in
  if Nat.eqb (length X) (length G) && Nat.eqb (length V) (length X) then Ok (X, V, G) else Err ValueError))).

(** dmd.py 1656-1716 [DMDControl.fit], re-used by [gDMDAffine] (1856), with 1795-1853: the system
    matrix and the control tensor. *)
Definition affine_fit q (k : tkind) (s : scheme) (accuracy : nat) (F : frame) (U : list (row 'rV[R]_q))
  : result ('M[R]_n * ('I_q -> 'M[R]_n)) :=
  bind (affine_data k s accuracy F U) (fun p =>
  let s := length p.2 in
  Ok (koopman_and_control_tensor lstsq s (values_matrix s p.1.1) (values_matrix s p.2) (values_matrix s p.1.2))).

End Model.
