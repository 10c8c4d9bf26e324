(** * C96: the accuracy of one Runge-Kutta step of the DC motor (_systems.py). *)

From mathcomp Require Import all_ssreflect all_algebra.
Import GRing.Theory Num.Theory.
From Verif Require Import RkModel RkSpec RkProofs FieldTac.
Set Implicit Arguments.
Unset Strict Implicit.
Unset Printing Implicit Defensive.
Local Open Scope ring_scope.

(** C96: for a constant control the motor is an affine system. *)
Theorem C96_motor_affine :
  forall (R : numFieldType) (p : motor R) (u : R), exists M c, Affine (motor_f p u) M c.
Proof. by move=> R p u; exists (motor_M p u), (col2 (m_c1 p) (- m_c2 p)); exact: motor_affine. Qed.
Print Assumptions C96_motor_affine.

(** C96: the step agrees with the solution up to second order in the step size. *)
Theorem C96_second_order :
  forall (R : numFieldType) n (f : 'cV[R]_n -> 'cV[R]_n) M c h x, Affine f M c ->
    runge_kutta f h x = taylor M c x h 2 + (h ^+ 3 / 12%:R) *: (M *m (M *m f x)).
Proof. by move=> R n f M c h x Hf; rewrite (rk_expand h x Hf) taylor2 -Hf. Qed.
Print Assumptions C96_second_order.

(** C96: the third order term has half the size it should have (the fourth stage is evaluated with the
    first slope instead of the third one). *)
Theorem C96_third_order_error :
  forall (R : numFieldType) n (f : 'cV[R]_n -> 'cV[R]_n) M c h x, Affine f M c ->
    runge_kutta f h x - taylor M c x h 3 = - (h ^+ 3 / 12%:R) *: (M *m (M *m f x)).
Proof.
move=> R n f M c h x Hf; rewrite (rk_expand h x Hf) taylor3 taylor2 -Hf.
move: (f x) (M *m f x) (M *m (M *m f x)) => g m1 m2.
have FT := ft_theory R.
rewrite opprD addrACA subrr add0r -scaleNr -scalerDl; congr (_ *: _).
have ->: 6%:R^-1 = 2%:R / 12%:R :> R by have ->: 12%:R = 2%:R * 6%:R :> R; [rewrite -natrM|rewrite invfM mulrA divff ?mul1r // pnatr_eq0].
by rewrite mulrCA mulrDl mul1r opprD addrA subrr add0r.
Qed.
Print Assumptions C96_third_order_error.

Definition ex_motor : motor rat_numFieldType := Motor 1 1 1 0 0 1.

(** C96: so the step is not a Runge-Kutta step of order four (which is exact up to the fourth order for
    affine systems), not even of order three: for this motor, and every step size other than zero, it
    differs from the Taylor polynomial of degree three by a third order term. *)
Theorem C96_order_refuted :
  exists (p : motor rat_numFieldType) (u : rat_numFieldType) (M : 'M[rat_numFieldType]_2) c x, Affine (motor_f p u) M c /\
    forall h, h != 0 -> runge_kutta (motor_f p u) h x != taylor M c x h 3.
Proof.
exists ex_motor, 0, (motor_M ex_motor 0), (col2 1 0), 0.
have HA: Affine (motor_f ex_motor 0) (motor_M ex_motor 0) (col2 1 0).
  move=> x; rewrite (motor_affine ex_motor 0 x); congr (_ + _); by rewrite /= oppr0.
split=> // h h0; rewrite -subr_eq0 (C96_third_order_error h 0 HA) scaler_eq0 oppr_eq0 mulf_eq0 expf_eq0 (negbTE h0) /=.
apply/eqP=> /matrixP /(_ 0 0); rewrite mxE big_ord_recl big_ord1 !mxE /= !big_ord_recl !big_ord0 !mxE /=.
by [].
Qed.
Print Assumptions C96_order_refuted.
