(** * Reduced rank dynamic mode decomposition (proof-free).

    Source: datafold/dynfold/dmd.py (dmd.py).  Exact arithmetic, real snapshots ([.conj()] is
    the identity on them), snapshots in columns.  The output of [np.linalg.svd] and of
    [np.linalg.eig] (after sorting) are arguments; what is assumed about them is a
    hypothesis of every theorem (RedSpec.v). *)

From mathcomp Require Import all_ssreflect all_algebra.
From Verif Require Import LinModel.
Import GRing.Theory.
Set Implicit Arguments.
Unset Strict Implicit.
Unset Printing Implicit Defensive.
Local Open Scope ring_scope.

(** dmd.py 701, 712: [reconstruct_mode]. *)
Inductive reconstruct_mode := Exact | Project.

(** What [fit] may raise before it computes anything. *)
Inductive refusal := BadRank | BadMode | DiagonalizeNotImplemented | WeightsNotImplemented.

(** dmd.py 739-760 [_validate_parameters], 1224-1234 and 849-853 (order of the checks): the
    rank lies between 1 and [n_features] and later between 1 and [n_features - 1]; a rank
    excludes [diagonalize] and sample weights.  [mode = None]: any other string. *)
Definition check_reduced (n rank : nat) (mode : option reconstruct_mode) (diagonalize weights : bool)
  : option refusal :=
  if ~~ ((1 <= rank) && (rank <= n))%N then Some BadRank
  else if diagonalize then Some DiagonalizeNotImplemented
  else if ~~ ((1 <= rank) && (rank <= n - 1))%N then Some BadRank
  else if mode is None then Some BadMode
  else if weights then Some WeightsNotImplemented
  else None.

(** dynsystem.py 541-545 [_check_initial_condition], called with the columns of the system
    matrix (606-612): does [predict] accept states with [rows] features? *)
Definition check_initial_condition (rows state_length : nat) : bool := rows == state_length.

Section Model.
Variable F : fieldType.

(** [np.reciprocal]. *)
Definition reciprocal r (d : 'rV[F]_r) : 'rV[F]_r := map_mx (fun x => x^-1) d.

(** dmd.py 848-867: [U], [sv], [Vh] is the thin SVD of the first shift matrix with [r + q]
    singular values (the smaller one of the number of features and of snapshots), [r] the
    rank.  A rank that exceeds the number of snapshots is not modelled (the slices then keep
    everything). *)
Definition reduced_system_matrix n s r q (Xp : 'M[F]_(n, s))
    (svd : 'M[F]_(n, r + q) * 'rV[F]_(r + q) * 'M[F]_(r + q, s)) : 'M[F]_r :=
  let: (U, sv, Vh) := svd in
  let U := lsubmx U in
  let S_inverse := reciprocal (lsubmx sv) in
  let V := lsubmx Vh^T in
  U^T *m Xp *m mat_dot_diagmat V S_inverse.

(** dmd.py 990-1001: the eigenvectors [W] of the reduced matrix are lifted to the states. *)
Definition reduced_modes n s r q (mode : reconstruct_mode) (Xp : 'M[F]_(n, s))
    (svd : 'M[F]_(n, r + q) * 'rV[F]_(r + q) * 'M[F]_(r + q, s)) (W : 'M[F]_r) : 'M[F]_(n, r) :=
  let: (U, sv, Vh) := svd in
  let U := lsubmx U in
  let S_inverse := reciprocal (lsubmx sv) in
  let V := lsubmx Vh^T in
  match mode with
  | Exact => Xp *m V *m diagmat_dot_mat S_inverse W
  | Project => U *m W
  end.

(** dmd.py 205-285 with the fitted system (1254-1293; no left eigenvectors, no residual filter,
    no generator): the initial states are expressed in the modes by least squares. *)
Definition reduced_predict (lstsq : lstsq_t F) (re : F -> F) n s r q m (mode : reconstruct_mode)
    (Xp : 'M[F]_(n, s)) (svd : 'M[F]_(n, r + q) * 'rV[F]_(r + q) * 'M[F]_(r + q, s))
    (W : 'M[F]_r) (eigenvalues : 'rV[F]_r) (X0 : 'M[F]_(n, m)) (steps : seq nat) : seq 'M[F]_(n, m) :=
  let Phi := reduced_modes mode Xp svd W in
  predict_spectral lstsq re Phi eigenvalues None Phi X0 steps.

(** dmd.py 1295-1303, 223-226 with [sys_mode="matrix"]: the reduced matrix itself becomes the
    system matrix; [None] stands for the ValueError. *)
Definition reduced_predict_matrix (re : F -> F) n r m (K : 'M[F]_r) (X0 : 'M[F]_(n, m)) (steps : seq nat)
  : option (seq 'M[F]_(n, m)) :=
  if check_initial_condition n r then
    match eqVneq r n with
    | EqNotNeq e => Some (predict_matrix re (castmx (e, e) K) X0 steps)
    | NeqNotEq _ => None
    end
  else None.

End Model.
