(** * EDMD: from dictionary space to full-state space (proof-free).

    Source: datafold/appfold/edmd.py (edmd.py).  Exact arithmetic, no control input. *)

From mathcomp Require Import all_ssreflect all_algebra.
From Verif Require Import LinModel.
Import GRing.Theory.
Set Implicit Arguments.
Unset Strict Implicit.
Unset Printing Implicit Defensive.
Local Open Scope ring_scope.

Section Model.
Variable F : fieldType.
Variable lstsq : lstsq_t F.
Variable re : F -> F.

(** edmd.py 487-506 [_least_squares_inverse_map]: dictionary states [X_dict] and full states
    [X] in rows. *)
Definition inverse_map s n p (X_dict : 'M[F]_(s, n)) (X : 'M[F]_(s, p)) : 'M[F]_(n, p) := lstsq X_dict X.

(** edmd.py 802-828: spectral mode, the Koopman modes (571-598) replace the eigenvectors. *)
Definition edmd_predict_modes n p m (V : 'M[F]_n) (eigenvalues : 'rV[F]_n) (L : option 'M[F]_n)
    (B : 'M[F]_(n, p)) (X0 : 'M[F]_(n, m)) (steps : seq nat) : seq 'M[F]_(p, m) :=
  predict_spectral lstsq re V eigenvalues L (koopman_modes B V) X0 steps.

(** edmd.py 829-856: matrix mode, the inverse map is applied to the predicted dictionary
    states (rows of the code are columns here). *)
Definition edmd_predict_matrix n p m (A : 'M[F]_n) (B : 'M[F]_(n, p)) (X0 : 'M[F]_(n, m)) (steps : seq nat)
  : seq 'M[F]_(p, m) :=
  [seq (S^T *m B)^T | S <- predict_matrix re A X0 steps].

End Model.
