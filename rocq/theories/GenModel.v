(** * Model of the generator-based DMD variants (proof-free).

    Source: datafold/dynfold/dmd.py (dmd.py), datafold/dynfold/dynsystem.py (dynsystem.py).

    The data are given as matrices with one snapshot per row: states [X], time derivatives
    [Xdot] at the same samples (accessor.py 704-824, modelled in DerModel.v for C60) and control
    input [U].  Real data, so that [conj] is the identity. *)

From mathcomp Require Import all_ssreflect all_algebra.
Import Order.Theory GRing.Theory Num.Theory.
From Verif Require Import LinModel.
Set Implicit Arguments.
Unset Strict Implicit.
Unset Printing Implicit Defensive.
Local Open Scope ring_scope.

Section Gen.
Variable F : fieldType.
Variable lstsq : lstsq_t F.

(** dmd.py 1419-1436 [gDMDFull._compute_koopman_generator]. *)
Definition koopman_generator s n (X Xdot : 'M[F]_(s, n)) : 'M[F]_n :=
  let data_sq := X^T *m X in
  let data_deriv := X^T *m Xdot in
  (lstsq data_sq data_deriv)^T.

(** dmd.py 1819-1822: [np.einsum("ij,ik->ijk", U, X).reshape(...)]: row i holds the products
    U[i,j] * X[i,k], the index of the control input varies slowest ([mxvec] is the C order). *)
Definition cwise_kron s q n (U : 'M[F]_(s, q)) (X : 'M[F]_(s, n)) : 'M[F]_(s, q * n) :=
  \matrix_(i < s) mxvec (\matrix_(j, k) (U i j * X i k)).

(** dmd.py 1795-1853 [gDMDAffine._compute_koopman_and_control_matrix]; [N]: number of
    snapshots (1807, 1831, 1833).  1848-1853: row a of the control matrix is reshaped to
    (control, state), then the axes are swapped: the tensor is given as the matrix
    [T c] a b = control_tensor[a, b, c] for every control input c. *)
Definition koopman_and_control_tensor s n q (N : nat) (X Xdot : 'M[F]_(s, n)) (U : 'M[F]_(s, q))
  : 'M[F]_n * ('I_q -> 'M[F]_n) :=
  let Psi_XU := col_mx X^T (cwise_kron U X)^T in
  let Psidot_XU := Xdot^T in
  let G := N%:R^-1 *: (Psi_XU *m Psi_XU^T) in
  let V := N%:R^-1 *: (Psidot_XU *m Psi_XU^T) in
  let MuT := lstsq G^T V^T in
  let sys_matrix := lsubmx MuT^T in
  let control_matrix := rsubmx MuT^T in
  (sys_matrix, fun c => \matrix_(a, b) (vec_mx (row a control_matrix) : 'M[F]_(q, n)) c b).

(** dynsystem.py 100-103: the right hand side
    [sys_matrix @ state + control_matrix @ u @ state]; the tensor contracts its last axis
    with the control input. *)
Definition affine_system_func n q (A : 'M[F]_n) (T : 'I_q -> 'M[F]_n) (u : 'cV[F]_q) (x : 'cV[F]_n)
  : 'cV[F]_n :=
  A *m x + (\sum_c u c 0 *: T c) *m x.

End Gen.
