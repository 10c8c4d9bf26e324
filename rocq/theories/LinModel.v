(** * Model of the linear systems and of their identification (proof-free).

    Source: datafold/dynfold/dmd.py (cited as dmd.py),
    datafold/dynfold/dynsystem.py (dynsystem.py),
    datafold/utils/general.py (general.py), datafold/appfold/edmd.py (edmd.py).

    Numbers are elements of a field [F] (exact arithmetic instead of floating
    point).  Matrices have mathcomp's type ['M_(rows, columns)]; one-dimensional
    arrays are row vectors.  Numerical routines of numpy/scipy/sklearn that are not
    part of datafold are parameters (oracles); what is assumed about them is
    written in LinSpec.v and stated as a hypothesis of every theorem. *)

From mathcomp Require Import all_ssreflect fingroup perm all_algebra.
Import GRing.Theory.
Set Implicit Arguments.
Unset Strict Implicit.
Unset Printing Implicit Defensive.
Local Open Scope ring_scope.

Section Model.
Variable F : fieldType.

(** [np.linalg.lstsq(a, b)[0]] (also sklearn's LinearRegression without
    intercept, whose coef_ is the transpose of scipy.linalg.lstsq's solution). *)
Definition lstsq_t := forall m n p : nat, 'M[F]_(m, n) -> 'M[F]_(m, p) -> 'M[F]_(n, p).

(** general.py 337-373 (dense case): [np.multiply(diag_elements, matrix)]. *)
Definition mat_dot_diagmat m n (M : 'M[F]_(m, n)) (d : 'rV[F]_n) : 'M[F]_(m, n) :=
  \matrix_(i, j) (d 0 j * M i j).

(** general.py 376-413 (dense case): [np.multiply(matrix, diag_elements[:, newaxis])]. *)
Definition diagmat_dot_mat m n (d : 'rV[F]_m) (M : 'M[F]_(m, n)) : 'M[F]_(m, n) :=
  \matrix_(i, j) (M i j * d 0 i).

(** [np.linalg.solve(a, b)]: raises LinAlgError if [a] is singular. *)
Definition solve n p (A : 'M[F]_n) (B : 'M[F]_(n, p)) : option 'M[F]_(n, p) :=
  if A \in unitmx then Some (invmx A *m B) else None.

(** ** identification *)

Section Fit.
Variable lstsq : lstsq_t.

(** dmd.py 754-836 [DMDStandard._compute_full_system_matrix].  [Xm], [Xp]: the
    shift matrices with snapshots in rows; [N]: number of rows of X (the factor
    1 / X.shape[0] of 781-786). *)
Definition full_gram s n p (N : nat) (w : option 'rV[F]_s) (Xm : 'M[F]_(s, n)) (Y : 'M[F]_(s, p))
  : 'M[F]_(n, p) :=
  match w with
  | None => N%:R^-1 *: (Xm^T *m Y)
  | Some w => Xm^T *m diagmat_dot_mat w Y
  end.

Definition full_system_matrix s n (N : nat) (w : option 'rV[F]_s) (Xm Xp : 'M[F]_(s, n)) : 'M[F]_n :=
  let G := full_gram N w Xm Xm in
  let G_dash := full_gram N w Xm Xp in
  (lstsq G G_dash)^T.

(** dmd.py 1608-1648 [DMDControl._compute_koopman_and_control_matrix]:
    [XU = np.vstack([Xm.T, Um.T])]. *)
Definition koopman_and_control s n q (N : nat) (Xm Xp : 'M[F]_(s, n)) (Um : 'M[F]_(s, q))
  : 'M[F]_n * 'M[F]_(n, q) :=
  let XU := col_mx Xm^T Um^T in
  let G := N%:R^-1 *: (XU *m XU^T) in
  let V := N%:R^-1 *: (Xp^T *m XU^T) in
  let MuT := lstsq G^T V^T in
  (lsubmx MuT^T, rsubmx MuT^T).

End Fit.

(** dmd.py 32-50 [compute_spectral_components]: [eigenvalues], [V] is the output
    of [np.linalg.eig] after sorting (general.py 252-334), [norms] the column
    norms of [V]. *)
Definition compute_spectral_components n (A : 'M[F]_n) (V : 'M[F]_n) (eigenvalues norms : 'rV[F]_n)
    (is_diagonalize : bool) : option ('M[F]_n * 'rV[F]_n * option 'M[F]_n) :=
  let Vn := mat_dot_diagmat V (map_mx (fun x => x^-1) norms) in
  if is_diagonalize then
    match solve (mat_dot_diagmat Vn eigenvalues) A with
    | Some L => Some (Vn, eigenvalues, Some L)
    | None => None
    end
  else Some (Vn, eigenvalues, None).

(** ** evolution *)

Section Evolve.
Variable lstsq : lstsq_t.
(** [np.real], entrywise. *)
Variable re : F -> F.

(** dynsystem.py 705-778 [compute_spectral_system_states]. *)
Definition compute_spectral_system_states n r m (V : 'M[F]_(n, r)) (L : option 'M[F]_(r, n))
    (states : 'M[F]_(n, m)) : 'M[F]_(r, m) :=
  match L with
  | Some L => L *m states
  | None => lstsq V states
  end.

(** dynsystem.py 155-188 [flowmap_matrix].  [steps] are the values of
    [time_values / time_delta], here natural numbers (other values are not
    modelled); [scipy.linalg.fractional_matrix_power] of a natural number is the
    ordinary power.  The tensor is a list over the time values, each entry holding
    the states of all initial conditions in columns. *)
Fixpoint mxpow n (A : 'M[F]_n) (k : nat) : 'M[F]_n :=
  if k is k'.+1 then A *m mxpow A k' else 1%:M.

Definition flowmap_matrix n m (A : 'M[F]_n) (X0 : 'M[F]_(n, m)) (steps : seq nat)
  : seq 'M[F]_(n, m) :=
  [seq map_mx re (mxpow A k *m X0) | k <- steps].

(** dynsystem.py 191-235 [flowmap_spectral]. *)
Definition flowmap_spectral n r m (M : 'M[F]_(n, r)) (eigenvalues : 'rV[F]_r) (B0 : 'M[F]_(r, m))
    (steps : seq nat) : seq 'M[F]_(n, m) :=
  [seq map_mx re (M *m diagmat_dot_mat (map_mx (fun x => x ^+ k) eigenvalues) B0) | k <- steps].

(** dynsystem.py 238-295 [flowmap_matrix_controlled]; [Us] lists for every time
    step the control inputs of all initial conditions (in columns). *)
Fixpoint controlled_states n q m (A : 'M[F]_n) (B : 'M[F]_(n, q)) (x : 'M[F]_(n, m))
    (Us : seq 'M[F]_(q, m)) : seq 'M[F]_(n, m) :=
  x :: match Us with
       | [::] => [::]
       | u :: Us' => controlled_states A B (map_mx re (A *m x + B *m u)) Us'
       end.

Definition flowmap_matrix_controlled n q m (A : 'M[F]_n) (B : 'M[F]_(n, q)) (X0 : 'M[F]_(n, m))
    (Us : seq 'M[F]_(q, m)) : seq 'M[F]_(n, m) := controlled_states A B X0 Us.

(** dynsystem.py 298-326 [flowmap_spectral_controlled]. *)
Definition flowmap_spectral_controlled n q m (V : 'M[F]_n) (L : 'M[F]_n) (eigenvalues : 'rV[F]_n)
    (B : 'M[F]_(n, q)) (B0 : 'M[F]_(n, m)) (Us : seq 'M[F]_(q, m)) : seq 'M[F]_(n, m) :=
  controlled_states (V *m diagmat_dot_mat eigenvalues L) B (map_mx re (V *m B0)) Us.

(** dmd.py 208-262 [_evolve_dmd_system] without control: the two system modes;
    [post] is the optional [post_map] of [predict] (dmd.py 194-206). *)
Definition predict_matrix n m (A : 'M[F]_n) (X : 'M[F]_(n, m)) (steps : seq nat) :=
  flowmap_matrix A X steps.

Definition predict_spectral n r p m (V : 'M[F]_(n, r)) (eigenvalues : 'rV[F]_r)
    (L : option 'M[F]_(r, n)) (modes : 'M[F]_(p, r)) (X : 'M[F]_(n, m)) (steps : seq nat) :=
  flowmap_spectral modes eigenvalues (compute_spectral_system_states V L X) steps.

(** edmd.py 571-598 [_compute_koopman_modes]. *)
Definition koopman_modes n r p (inverse_map : 'M[F]_(n, p)) (V : 'M[F]_(n, r)) : 'M[F]_(p, r) :=
  inverse_map^T *m V.

(** edmd.py 600-666 [_sort_koopman_triplets]: columns of modes and right
    eigenvectors, eigenvalues, and rows of the left eigenvectors are reordered by
    the index array [argsort_importance] (any permutation; its definition by
    importance is not modelled). *)
Definition sort_koopman_triplets n r p (s : 'S_r)
    (t : 'M[F]_(p, r) * 'rV[F]_r * 'M[F]_(n, r) * option 'M[F]_(r, n)) :=
  let: (modes, eigenvalues, V, L) := t in
  (col_perm s modes, col_perm s eigenvalues, col_perm s V, omap (row_perm s) L).

End Evolve.
End Model.
