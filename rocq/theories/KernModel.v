(** * Diffusion map kernels and embeddings (proof-free).

    Source: datafold/pcfold/kernels.py (kernels.py), datafold/dynfold/dmap.py (dmap.py),
    datafold/utils/general.py (general.py).

    Numbers are elements of a real closed field [R] (exact arithmetic).  Kernel matrices are
    dense matrices with one row per query point and one column per reference point.  Where
    the sparse code differs from the dense code there is a second definition.  [None] is a
    raised exception.  The in-place updates of the input arrays are not modelled. *)

From mathcomp Require Import all_ssreflect all_algebra.
From Verif Require Import LinModel.
Import Order.Theory GRing.Theory Num.Theory.
Set Implicit Arguments.
Unset Strict Implicit.
Unset Printing Implicit Defensive.
Local Open Scope ring_scope.

Section Model.
Variable R : rcfType.

(** [kernel_matrix.sum(axis=1)]. *)
Definition row_sums m n (K : 'M[R]_(m, n)) : 'rV[R]_m := \row_i \sum_j K i j.

(** [np.reciprocal]. *)
Definition reciprocal n (v : 'rV[R]_n) : 'rV[R]_n := \row_j (v 0 j)^-1.

Definition has_zero n (v : 'rV[R]_n) : bool := [exists j, v 0 j == 0].

(** general.py 529-578 [remove_numeric_noise_symmetric_matrix] (dense). *)
Definition remove_noise n (M : 'M[R]_n) : 'M[R]_n := \matrix_(i, j) ((M i j + M j i) / 2%:R).

(** kernels.py 58-186 [_symmetric_matrix_division] with vec_right=None and
    value_zero_division="raise". *)
Definition sym_division n (M : 'M[R]_n) (v : 'rV[R]_n) (is_symmetric : bool) : option 'M[R]_n :=
  if has_zero v then None
  else
    let w := reciprocal v in
    let M := mat_dot_diagmat (diagmat_dot_mat w M) w in
    Some (if is_symmetric then remove_noise M else M).

(** The same with vec_right. *)
Definition sym_division2 m n (M : 'M[R]_(m, n)) (v : 'rV[R]_m) (vr : 'rV[R]_n) : option 'M[R]_(m, n) :=
  if has_zero v || has_zero vr then None
  else Some (mat_dot_diagmat (diagmat_dot_mat (reciprocal v) M) (reciprocal vr)).

(** kernels.py 189-260 [_conjugate_stochastic_kernel_matrix]: the matrix and the diagonal of
    the basis change matrix.  Row sums are assumed non-negative (sqrt of a negative number
    is NaN in numpy). *)
Definition conjugate_kernel n (K : 'M[R]_n) : option ('M[R]_n * 'rV[R]_n) :=
  let v := \row_j Num.sqrt (row_sums K 0 j) in
  match sym_division K v true with
  | None => None
  | Some A => Some (A, reciprocal v)
  end.

(** kernels.py 263-316 [_stochastic_kernel_matrix], dense: reciprocals that are infinite or
    negative are replaced by zero. *)
Definition stochastic_kernel m n (K : 'M[R]_(m, n)) : 'M[R]_(m, n) :=
  let s := row_sums K in
  let d := \row_i (if (s 0 i == 0) || ((s 0 i)^-1 < 0) then 0 else (s 0 i)^-1) in
  diagmat_dot_mat d K.

(** The same, sparse: [sklearn.preprocessing.normalize(norm="l1")] divides every row by the
    sum of its absolute values, rows without mass stay zero. *)
Definition stochastic_kernel_sparse m n (K : 'M[R]_(m, n)) : 'M[R]_(m, n) :=
  \matrix_(i, j) (let s := \sum_k `|K i k| in K i j / (if s == 0 then 1 else s)).

(** ** DmapKernelFixed *)

Record dmap_cfg := DmapCfg {
  is_stochastic : bool;
  alpha_positive : bool;
  pow_alpha : R -> R;                (* np.power(., alpha) *)
  symmetrize_kernel : bool;
  distance_symmetric : bool }.

(** kernels.py 1515 and 1532-1542 [is_conjugate]. *)
Definition is_conjugate (c : dmap_cfg) : bool :=
  is_stochastic c && (symmetrize_kernel c || ~~ is_stochastic c) && distance_symmetric c.

(** kernels.py 1544-1587 [_normalize_sampling_density], pair-wise: the matrix and
    [row_sums_alpha]. *)
Definition density_pdist n (c : dmap_cfg) (K : 'M[R]_n) : option ('M[R]_n * 'rV[R]_n) :=
  let rs := map_mx (pow_alpha c) (row_sums K) in
  match sym_division K rs (distance_symmetric c) with
  | None => None
  | Some K' => Some (K', rs)
  end.

(** The same, component-wise: with the row sums of the reference points. *)
Definition density_cdist m n (c : dmap_cfg) (fit : 'rV[R]_n) (K : 'M[R]_(m, n)) : option 'M[R]_(m, n) :=
  sym_division2 K (map_mx (pow_alpha c) (row_sums K)) fit.

(** kernels.py 1589-1632 [_normalize], pair-wise: matrix, basis change, row sums. *)
Definition normalize_pdist n (c : dmap_cfg) (K : 'M[R]_n)
  : option ('M[R]_n * option 'rV[R]_n * option 'rV[R]_n) :=
  if ~~ is_stochastic c then Some (K, None, None)
  else
    match (if alpha_positive c
           then match density_pdist c K with None => None | Some (K', rs) => Some (K', Some rs) end
           else Some (K, None)) with
    | None => None
    | Some (K', rs) =>
        if is_conjugate c then
          match conjugate_kernel K' with
          | None => None
          | Some (A, d) => Some (A, Some d, rs)
          end
        else Some (stochastic_kernel K', None, rs)
    end.

(** The same, component-wise; [fit] is the attribute row_sums_alpha_. *)
Definition normalize_cdist m n (c : dmap_cfg) (fit : option 'rV[R]_n) (K : 'M[R]_(m, n))
  : option 'M[R]_(m, n) :=
  if ~~ is_stochastic c then Some K
  else
    match (if alpha_positive c
           then match fit with None => None | Some rs => density_cdist c rs K end
           else Some K) with
    | None => None
    | Some K' => Some (stochastic_kernel K')
    end.

(** ** DiffusionMaps *)

(** A solver of the eigenproblem (eigsolver.py 180-258, backed by scipy): the eigenvalues
    and the matrix of eigenvectors; [None] for NumericalMathError (also if they are not
    real, dmap.py 73-92). *)
Definition eig_t (k : nat) := forall n : nat, 'M[R]_n -> option ('rV[R]_k * 'M[R]_(n, k)).

Definition col_norm n k (V : 'M[R]_(n, k)) : 'rV[R]_k := \row_j Num.sqrt (\sum_i V i j ^+ 2).

(** dmap.py 50-106 [solve_eigenproblem]: basis change and normalisation of the columns. *)
Definition solve_eigenproblem n k (eig : eig_t k) (A : 'M[R]_n) (basis : option 'rV[R]_n)
  : option ('rV[R]_k * 'M[R]_(n, k)) :=
  match eig n A with
  | None => None
  | Some (e, V) =>
      let V := match basis with Some d => diagmat_dot_mat d V | None => V end in
      Some (e, mat_dot_diagmat V (reciprocal (col_norm V)))
  end.

(** dmap.py 108-158 [unsymmetric_kernel_matrix]. *)
Definition unsymmetric_kernel n (A : 'M[R]_n) (d : 'rV[R]_n) : 'M[R]_n :=
  mat_dot_diagmat (diagmat_dot_mat d A) (reciprocal d).

(** A fitted model: eigenvalues, eigenvectors, row_sums_alpha_. *)
Record dmap_fit n k := DmapFit {
  eigenvalues : 'rV[R]_k;
  eigenvectors : 'M[R]_(n, k);
  row_sums_fit : option 'rV[R]_n }.

(** dmap.py 467-563 [fit]; [K] is the matrix of the internal kernel at the training points. *)
Definition fit n k (eig : eig_t k) (c : dmap_cfg) (K : 'M[R]_n) : option (dmap_fit n k) :=
  match normalize_pdist c K with
  | None => None
  | Some (A, basis, rs) =>
      match solve_eigenproblem eig A basis with
      | None => None
      | Some (e, V) => Some (DmapFit e V rs)
      end
  end.

(** dmap.py 355-381 [_nystrom]. *)
Definition nystroem m n k (K : 'M[R]_(m, n)) (V : 'M[R]_(n, k)) (e : 'rV[R]_k) : 'M[R]_(m, k) :=
  K *m mat_dot_diagmat V (reciprocal e).

(** [np.multiply(d, M)] with numpy's broadcasting of a vector of length [k] with a matrix of
    [c] columns. *)
Definition multiply_broadcast m c k (d : 'rV[R]_k) (M : 'M[R]_(m, c)) : option {c' : nat & 'M[R]_(m, c')} :=
  match eqVneq k c with
  | EqNotNeq e => Some (existT _ c (mat_dot_diagmat M (castmx (erefl, e) d)))
  | NeqNotEq _ =>
      match c, k return 'M[R]_(m, c) -> 'rV[R]_k -> option {c' : nat & 'M[R]_(m, c')} with
      | 1%N, k => fun M d => Some (existT _ k (\matrix_(i, j) (d 0 j * M i 0)))
      | c, 1%N => fun M d => Some (existT _ c (\matrix_(i, j) (d 0 0 * M i j)))
      | _, _ => fun _ _ => None
      end M d
  end.

(** dmap.py 383-405 [_perform_dmap_embedding]: all eigenvalues are used, also if only some
    coordinates [M] are selected.  [texp] is [np.power(., time_exponent)]; None for the
    exponent zero. *)
Definition embedding m c k (texp : option (R -> R)) (e : 'rV[R]_k) (M : 'M[R]_(m, c))
  : option {c' : nat & 'M[R]_(m, c')} :=
  match texp with
  | None => Some (existT _ c M)
  | Some p => multiply_broadcast (map_mx p e) M
  end.

(** dmap.py 407-423 [_select_eigenpairs_target_coords]; [sel] gives the selected positions. *)
Definition select_vectors n k c (sel : 'I_c -> 'I_k) (V : 'M[R]_(n, k)) : 'M[R]_(n, c) :=
  \matrix_(i, j) V i (sel j).

(** dmap.py 626-649 [fit_transform], after fit. *)
Definition fit_transform n k c (f : dmap_fit n k) (sel : 'I_c -> 'I_k) (texp : option (R -> R)) :=
  embedding texp (eigenvalues f) (select_vectors sel (eigenvectors f)).

(** dmap.py 565-624 [transform]; [K] is the matrix of the internal kernel between the new
    points and the training points. *)
Definition transform m n k c (cfg : dmap_cfg) (f : dmap_fit n k) (sel : 'I_c -> 'I_k)
    (texp : option (R -> R)) (K : 'M[R]_(m, n)) : option {c' : nat & 'M[R]_(m, c')} :=
  match normalize_cdist cfg (row_sums_fit f) K with
  | None => None
  | Some K' =>
      embedding texp (eigenvalues f)
        (nystroem K' (select_vectors sel (eigenvectors f)) (select_vectors sel (eigenvalues f)))
  end.

(** dmap.py 651-693 [inverse_transform] without the cache: least squares with the selected
    eigenvectors (not the embedding). *)
Definition inverse_transform m n k c p (lstsq : lstsq_t R) (f : dmap_fit n k) (sel : 'I_c -> 'I_k)
    (X : 'M[R]_(n, p)) (Z : 'M[R]_(m, c)) : 'M[R]_(m, p) :=
  Z *m lstsq _ _ _ (select_vectors sel (eigenvectors f)) X.

End Model.
