(** * Model of [MahalanobisKernel] (proof-free).

    Source: datafold/pcfold/kernels.py (cited as kernels.py).

    The distance algorithm is described by the matrix it returns; [expf] is the exponential of
    numexpr, [estimate] the estimation of the bandwidth (estimators.py, C33) from the stored
    distances.  Numbers are elements of a real closed field. *)

From Coq Require Import List.
From mathcomp Require Import all_ssreflect all_algebra.
From Verif Require Import Np.
Import Order.Theory GRing.Theory Num.Theory.
Set Implicit Arguments.
Unset Strict Implicit.
Unset Printing Implicit Defensive.
Local Open Scope ring_scope.

Section Model.
Variable R : rcfType.

(** A sparse matrix: the shape and, for every position, the value if one is stored.  Positions
    outside of the shape have no meaning. *)
Record csr := Csr { n_rows : nat; n_cols : nat; entry : nat -> nat -> option R }.

(** What a distance algorithm returns (distance.py): a dense array without cut-off, else a sparse
    matrix with explicit zeros. *)
Inductive dist_matrix :=
| Dense (r c : nat) (D : nat -> nat -> R)
| Sparse (A : csr).

(** kernels.py 1345 [scipy.sparse.csr_matrix(distance_matrix)]: zeros of a dense array are not
    stored; a sparse matrix is taken over with its arrays. *)
Definition to_csr (D : dist_matrix) : csr :=
  match D with
  | Dense r c D => Csr r c (fun i j => if D i j == 0 then None else Some (D i j))
  | Sparse A => A
  end.

Variable m : nat.

(** [X] with [n_points] rows and [cov_matrices] with [n_cov] matrices. *)
Variables (n_points n_cov : nat) (X : nat -> 'rV[R]_m) (cov : nat -> 'M[R]_m).

(** kernels.py 1360-1368 *)
Definition mahalanobis_distance (i j : nat) : R :=
  let diff := X i - X j in
  Num.sqrt (((2%:R^-1 *: diff) *m (cov i + cov j) *m diff^T) 0 0).

(** Are all accesses of 1350-1358 in bounds? *)
Definition accesses_ok (A : csr) : bool :=
  all (fun i => (i < n_points)%N && (i < n_cov)%N &&
                all (fun j => (entry A i j == None) || (j == i) || ((j < n_points)%N && (j < n_cov)%N))
                    (iota 0 (n_cols A)))
      (iota 0 (n_rows A)).

(** kernels.py 1347-1375: stored entries off the diagonal are replaced. *)
Definition replace_distances (A : csr) : csr :=
  Csr (n_rows A) (n_cols A)
      (fun i j => if entry A i j is Some v then Some (if j == i then v else mahalanobis_distance i j) else None).

Variable expf : R -> R.
Variable estimate : csr -> result R.

Definition map_data (f : R -> R) (A : csr) : csr := Csr (n_rows A) (n_cols A) (fun i j => omap f (entry A i j)).

(** The value at a position of a sparse matrix. *)
Definition value (A : csr) (i j : nat) : R := odflt 0 (entry A i j).

(** kernels.py 1326-1399 [evaluate]: the values of the kernel matrix (which has the shape of the
    distance matrix) and the distance matrix of the caller afterwards.  The arrays of a sparse
    distance matrix are shared with the caller and overwritten (1371-1375, 1389).
    The sum with the transposed (1397) fails for other than square matrices. *)
Definition evaluate (epsilon : option R) (D : dist_matrix) : result ((nat -> nat -> R) * dist_matrix) :=
  let A := to_csr D in
  if ~~ accesses_ok A then Err IndexError else
  let A := replace_distances A in
  bind (if epsilon is Some e then Ok e else estimate A) (fun eps =>
  let A := map_data (fun d => d ^+ 2) A in
  let K := map_data (fun d => expf (- 1 / (2%:R * eps) * d)) A in
  if n_rows K != n_cols K then Err ValueError else
  Ok (fun i j => 2%:R^-1 * (value K i j + value K j i),
      if D is Sparse _ then Sparse A else D)).

(** kernels.py 1280-1324 [__call__]: [distance] is the result of the distance algorithm for X and
    Y; [cov_given], [other_kwargs]: were the covariance matrices (other arguments) passed? *)
Definition mahalanobis_call (epsilon : option R) (cov_given other_kwargs : bool) (distance : dist_matrix)
  : result (nat -> nat -> R) :=
  if other_kwargs then Err KeyError else
  if ~~ cov_given then Err AssertionError else
  bind (evaluate epsilon distance) (fun p => Ok p.1).

End Model.
