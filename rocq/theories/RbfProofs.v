(** * Lemmas about TSCRadialBasis. *)

From mathcomp Require Import all_ssreflect all_algebra.
From Verif Require Import LinModel LinSpec RbfModel RbfSpec.
Import GRing.Theory.
Set Implicit Arguments.
Unset Strict Implicit.
Unset Printing Implicit Defensive.
Local Open Scope ring_scope.

Section Proofs.
Variable R : realFieldType.
Variable d : nat.
Variable dist : 'rV[R]_d -> 'rV[R]_d -> R.
Variable phi : R -> R.
Hypothesis Hd : is_distance dist.

Lemma kernel_x_interpolation n (C : 'M[R]_(n, d)) : kernel_x dist phi C = interpolation dist phi C.
Proof.
apply/matrixP=> i j; rewrite !mxE; congr phi; case: Hd=> Hs H0; case: ltngtP=> // E.
by have -> : i = j by exact: val_inj.
Qed.

Lemma kernel_xy_interpolation n (C : 'M[R]_(n, d)) : kernel_xy dist phi C C = interpolation dist phi C.
Proof. by apply/matrixP=> i j; rewrite !mxE. Qed.

Lemma kernel_xy_among n m (C : 'M[R]_(n, d)) (Y : 'M[R]_(m, d)) Z : among C Y ->
  interpolation dist phi C *m Z = C -> kernel_xy dist phi C Y *m Z = Y.
Proof.
move=> HY HZ; apply/row_matrixP=> i; have [j Ej] := HY i.
rewrite row_mul Ej -[in RHS]HZ row_mul; congr (_ *m _).
by apply/rowP=> k; rewrite !mxE Ej.
Qed.

End Proofs.
