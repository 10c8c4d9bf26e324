(** * Roseland, jointly smooth functions, geometric harmonics (proof-free).

    Source: datafold/dynfold/dmap.py (dmap.py), datafold/dynfold/jsf.py (jsf.py),
    datafold/dynfold/outofsample.py (outofsample.py), datafold/pcfold/kernels.py (kernels.py).

    Exact arithmetic in a real closed field; dense matrices; [None] is a raised exception. *)

From mathcomp Require Import all_ssreflect all_algebra.
From Verif Require Import LinModel KernModel.
Import Order.Theory GRing.Theory Num.Theory.
Set Implicit Arguments.
Unset Strict Implicit.
Unset Printing Implicit Defensive.
Local Open Scope ring_scope.

Section Model.
Variable R : rcfType.

(** ** Roseland (alpha = 0) *)

(** kernels.py 1772-1812 [_compute_normalize_diagonal] and 1814-1872 [_eval_kernel_matrix]:
    rows are data points, columns landmarks.  [fitted] is the attribute
    stochastic_normalization_ of an earlier evaluation.  Result: the normalised matrix,
    stochastic_normalization, normalize_diagonal.  The matrix under the square root is
    assumed to have non-negative row sums. *)
Definition rose_eval n l (fitted : option 'rV[R]_l) (K : 'M[R]_(n, l)) : 'M[R]_(n, l) * 'rV[R]_l * 'rV[R]_n :=
  let st := match fitted with Some s => s | None => \row_j \sum_i K i j end in
  let r := row_sums (mat_dot_diagmat K st) in
  let nd := \row_i (if r 0 i == 0 then 0 else (Num.sqrt (r 0 i))^-1) in
  (diagmat_dot_mat nd K, st, nd).

(** eigsolver.py 275-318 [compute_kernel_svd]: k singular triplets (U, s, V); [None] for
    ValueError (too many triplets) and NumericalMathError. *)
Definition svd_t (k : nat) :=
  forall n l : nat, 'M[R]_(n, l) -> option ('M[R]_(n, k) * 'rV[R]_k * 'M[R]_(l, k)).

Record rose_fit n l k := RoseFit {
  svdvec_left : 'M[R]_(n, k);
  svdvalues : 'rV[R]_k;
  svdvec_right : 'M[R]_(l, k);
  stochastic_normalization : 'rV[R]_l }.

(** dmap.py 1102-1171 [fit] with 968-1000 [_compute_kernel_svd]. *)
Definition rose_fit_model n l k (svd : svd_t k) (K : 'M[R]_(n, l)) : option (rose_fit n l k) :=
  let '(M, st, nd) := rose_eval None K in
  match svd n l M with
  | None => None
  | Some (U, s, V) => Some (RoseFit (diagmat_dot_mat nd U) s V st)
  end.

(** dmap.py 1045-1062 [_perform_roseland_embedding]; [texp] is the power with exponent
    2 * time_exponent, None for zero. *)
Definition rose_embedding n c (texp : option (R -> R)) (U : 'M[R]_(n, c)) (s : 'rV[R]_c) : 'M[R]_(n, c) :=
  match texp with
  | None => U
  | Some p => mat_dot_diagmat U (map_mx p s)
  end.

(** dmap.py 1173-1227 [transform] with 1021-1043 [_nystrom] and 1002-1019
    [_select_svdpairs_target_coords]. *)
Definition rose_transform m n l k c (f : rose_fit n l k) (sel : 'I_c -> 'I_k)
    (texp : option (R -> R)) (K : 'M[R]_(m, l)) : 'M[R]_(m, c) :=
  let '(M, _, nd) := rose_eval (Some (stochastic_normalization f)) K in
  let V := select_vectors sel (svdvec_right f) in
  let s := select_vectors sel (svdvalues f) in
  rose_embedding texp (diagmat_dot_mat nd (M *m mat_dot_diagmat V (reciprocal s))) s.

(** dmap.py 1229-1255 [fit_transform]: the exponent is not applied. *)
Definition rose_fit_transform n l k c (f : rose_fit n l k) (sel : 'I_c -> 'I_k) : 'M[R]_(n, c) :=
  select_vectors sel (svdvec_left f).

(** ** Jointly smooth functions of two data splits *)

(** jsf.py 189-199: the number of functions. *)
Definition n_functions (n p1 p2 : nat) : nat := minn n (minn p1.-1 p2.-1).

Lemma n_functions_le n p1 p2 : (n_functions n p1 p2 <= minn p1 p2 + minn p1 p2)%N.
Proof.
rewrite /n_functions; apply: leq_trans (leq_addr _ _).
by apply: leq_trans (geq_minr _ _) _; rewrite leq_min !geq_min !leq_pred /= orbT.
Qed.

(** The position of the j-th function among the columns of the block matrix. *)
Definition fun_index n p1 p2 (j : 'I_(n_functions n p1 p2)) : 'I_(minn p1 p2 + minn p1 p2) :=
  widen_ord (n_functions_le n p1 p2) j.

(** [scipy.linalg.svd(A, full_matrices=False)]: Q, singular values, the transpose of Rt;
    [None] for LinAlgError. *)
Definition full_svd_t := forall p1 p2 : nat, 'M[R]_(p1, p2) ->
  option ('M[R]_(p1, minn p1 p2) * 'rV[R]_(minn p1 p2) * 'M[R]_(p2, minn p1 p2)).

(** jsf.py 184-224 [_compute_jointly_smooth_vectors]; [W1], [W2] are the kernel eigenvectors.
    The result: the singular values and the functions. *)
Definition jsf_vectors s p1 p2 (svd : full_svd_t) (n : nat) (W1 : 'M[R]_(s, p1)) (W2 : 'M[R]_(s, p2))
  : option ('rV[R]_(minn p1 p2) * 'M[R]_(s, n_functions n p1 p2)) :=
  match svd p1 p2 (W1^T *m W2) with
  | None => None
  | Some (Q, sv, Rt) =>
  let center := col_mx (row_mx Q Q) (row_mx Rt (- Rt)) in
  let diag := row_mx (\row_j (1 + sv 0 j)) (\row_j (1 - sv 0 j)) in
  let center := \matrix_(i, j) center i (fun_index j) in
  let diag := \row_j (Num.sqrt (diag 0 (fun_index j)))^-1 in
  Some (sv, (1 / Num.sqrt 2%:R) *: (row_mx W1 W2 *m mat_dot_diagmat center diag))
  end.

(** jsf.py 245-297 [_nystrom]: [F] are the functions at the training points, [K1], [K2] the
    kernel matrices between new and training points, [e1], [e2] the kernel eigenvalues.  The
    result array has as many columns as functions were requested; if fewer exist the
    assignment raises. *)
Definition jsf_transform m s p1 p2 n (W1 : 'M[R]_(s, p1)) (W2 : 'M[R]_(s, p2)) (e1 : 'rV[R]_p1) (e2 : 'rV[R]_p2)
    (F : 'M[R]_(s, n_functions n p1 p2)) (K1 K2 : 'M[R]_(m, s)) : option 'M[R]_(m, n_functions n p1 p2) :=
  if n_functions n p1 p2 == n then
    Some (2%:R^-1 *: (nystroem K1 W1 e1 *m (W1^T *m F) + nystroem K2 W2 e2 *m (W2^T *m F)))
  else None.

(** ** Jointly smooth functions of three and more data splits *)

(** One data split: kernel eigenvectors and eigenvalues at the training points. *)
Record split s := Split { n_eig : nat; evecs : 'M[R]_(s, n_eig); evals : 'rV[R]_n_eig }.

(** jsf.py 187: [np.column_stack] of all eigenvectors. *)
Fixpoint stack s (ws : seq (split s)) : {p : nat & 'M[R]_(s, p)} :=
  match ws with
  | [::] => existT _ 0%N (0 : 'M[R]_(s, 0))
  | w :: ws => existT _ (n_eig w + tag (stack ws))%N (row_mx (evecs w) (tagged (stack ws)))
  end.

(** jsf.py 225-234: left singular vectors of the stacked matrix (k = number of functions). *)
Definition jsf_vectors_multi s k (svd : svd_t k) (ws : seq (split s))
  : option ('rV[R]_k * 'M[R]_(s, k)) :=
  match svd s (tag (stack ws)) (tagged (stack ws)) with
  | None => None
  | Some (U, sv, _) => Some (sv, U)
  end.

(** jsf.py 245-297 [_nystrom] for any number of splits; [ks] are the splits with the kernel
    matrix between the new points and the training points. *)
Definition jsf_transform_multi m s k (F : 'M[R]_(s, k)) (ks : seq (split s * 'M[R]_(m, s))) : 'M[R]_(m, k) :=
  (size ks)%:R^-1 *:
    \sum_(wk <- ks) nystroem wk.2 (evecs wk.1) (evals wk.1) *m ((evecs wk.1)^T *m F).

(** ** Geometric harmonics *)

(** outofsample.py 93-106 [_precompute_aux]. *)
Definition ghi_aux n k p (f : dmap_fit R n k) (y : 'M[R]_(n, p)) : 'M[R]_(n, p) :=
  mat_dot_diagmat (eigenvectors f) (reciprocal (eigenvalues f)) *m ((eigenvectors f)^T *m y).

(** outofsample.py 145-226 [fit] is the [fit] of the diffusion map with the targets stored;
    228-245 [predict]. *)
Definition ghi_predict m n k p (c : dmap_cfg R) (f : dmap_fit R n k) (y : 'M[R]_(n, p)) (K : 'M[R]_(m, n))
  : option 'M[R]_(m, p) :=
  match normalize_cdist c (row_sums_fit f) K with
  | None => None
  | Some K' => Some (K' *m ghi_aux f y)
  end.

End Model.
