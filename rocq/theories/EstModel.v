(** * Kernel scale estimate (proof-free).

    Source: datafold/pcfold/estimators.py (estimators.py), datafold/pcfold/kernels.py. *)

From Coq Require Import Reals.
Local Open Scope R_scope.

(** estimators.py 124-128 [estimate_scale], for a given cut-off. *)
Definition estimate_scale (tol cut_off : R) : R := cut_off ^ 2 / (- ln tol).

(** kernels.py 820-825 [GaussianKernel.evaluate]: one entry, [d2] is the squared distance. *)
Definition gaussian (eps d2 : R) : R := exp (- 1 / (2 * eps) * d2).
