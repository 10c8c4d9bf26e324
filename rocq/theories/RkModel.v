(** * Model of the Runge-Kutta step of the DC motor (proof-free).

    Source: datafold/utils/_systems.py 1118-1126 and 1196-1200 (cited as _systems.py).  One initial condition;
    exact arithmetic in an arbitrary field. *)

From mathcomp Require Import all_ssreflect all_algebra.
Import GRing.Theory.
Set Implicit Arguments.
Unset Strict Implicit.
Unset Printing Implicit Defensive.
Local Open Scope ring_scope.

Section Rk.
Variable R : fieldType.

(** _systems.py 1118-1126 [_runge_kutta] for the right hand side [f] (the control is constant during
    the step). *)
Definition runge_kutta n (f : 'cV[R]_n -> 'cV[R]_n) (dt : R) (x : 'cV[R]_n) : 'cV[R]_n :=
  let k1 := f x in
  let k2 := f (x + (dt / 2%:R) *: k1) in
  let k3 := f (x + (dt / 2%:R) *: k2) in
  let k4 := f (x + dt *: k1) in
  x + (dt / 6%:R) *: (k1 + 2%:R *: k2 + 2%:R *: k3 + k4).

(** The constants of _systems.py 1198-1199: 19.10828025, 39.3153, 32.2293, 3.333333333, 1.6599,
    22.9478. *)
Record motor := Motor { m_c1 : R; m_a : R; m_b : R; m_c2 : R; m_d : R; m_e : R }.

Definition col2 (a b : R) : 'cV[R]_2 := \col_i (if i == 0 then a else b).

(** _systems.py 1196-1200 [_f]. *)
Definition motor_f (p : motor) (u : R) (y : 'cV[R]_2) : 'cV[R]_2 :=
  col2 (m_c1 p - m_a p * y 0 0 - m_b p * y 1 0 * u)
       (- m_c2 p - m_d p * y 1 0 + m_e p * y 0 0 * u).

End Rk.
