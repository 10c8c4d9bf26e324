(** * Proofs: the Runge-Kutta step of the DC motor. *)

From mathcomp Require Import all_ssreflect all_algebra.
Import GRing.Theory Num.Theory.
From Verif Require Import RkModel RkSpec FieldTac.
Set Implicit Arguments.
Unset Strict Implicit.
Unset Printing Implicit Defensive.
Local Open Scope ring_scope.

Section Proofs.
Variable R : numFieldType.
Add Field RField : (ft_theory R).

Definition motor_M (p : motor R) (u : R) : 'M[R]_2 :=
  \matrix_(i, j) (if i == 0 then (if j == 0 then - m_a p else - m_b p * u) else (if j == 0 then m_e p * u else - m_d p)).

Lemma motor_affine (p : motor R) (u : R) : Affine (motor_f p u) (motor_M p u) (col2 (m_c1 p) (- m_c2 p)).
Proof.
move=> x; apply/matrixP=> i j; rewrite (ord1 j) !mxE big_ord_recl big_ord1 !mxE.
have ->: lift ord0 (ord0 : 'I_1) = (1 : 'I_2) by exact/val_inj.
by case: (i == 0) => /=; mfield R.
Qed.

Lemma rk_expand n (f : 'cV[R]_n -> 'cV[R]_n) M c h x : Affine f M c ->
  runge_kutta f h x = x + h *: f x + (h ^+ 2 / 2%:R) *: (M *m f x) + (h ^+ 3 / 12%:R) *: (M *m (M *m f x)).
Proof.
move=> Hf.
have fD a y : f (x + a *: y) = f x + a *: (M *m y).
  by rewrite !Hf mulmxDr -scalemxAr addrAC.
rewrite /runge_kutta !fD !mulmxDr -!scalemxAr.
move: (f x) (M *m f x) (M *m (M *m f x)) => g m1 m2.
apply/matrixP=> i j; rewrite !mxE.
by rewrite !exprS expr0; mfield R; rewrite ?pnatr_eq0.
Qed.

Lemma taylor2 n (M : 'M[R]_n) c x h : taylor M c x h 2 = x + h *: (M *m x + c) + (h ^+ 2 / 2%:R) *: (M *m (M *m x + c)).
Proof.
rewrite /taylor !big_ord_recl big_ord0 addr0 /= !factS fact0 !muln1 expr0 divr1 scale1r.
by rewrite /bump /= expr1 divr1 addrA.
Qed.

Lemma taylor3 n (M : 'M[R]_n) c x h :
  taylor M c x h 3 = taylor M c x h 2 + (h ^+ 3 / 6%:R) *: (M *m (M *m (M *m x + c))).
Proof. by rewrite /taylor big_ord_recr. Qed.

End Proofs.
