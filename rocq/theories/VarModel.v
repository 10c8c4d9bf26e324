(** * Variable bandwidth diffusion maps (proof-free).

    Source: datafold/pcfold/kernels.py (kernels.py), datafold/dynfold/dmap.py (dmap.py).

    Numbers are elements of a real closed field [R] (exact arithmetic); [np.exp], [np.power]
    and the constant 2 pi are parameters.  [None] is a raised exception.  The distance matrix holds
    squared Euclidean distances. *)

From mathcomp Require Import all_ssreflect all_algebra.
From Verif Require Import LinModel KernModel.
Import Order.Theory GRing.Theory Num.Theory.
Set Implicit Arguments.
Unset Strict Implicit.
Unset Printing Implicit Defensive.
Local Open Scope ring_scope.

Section Model.
Variable R : rcfType.
Variable exp : R -> R.
Variable pow : R -> R -> R.
Variable twopi : R.

(** The parameters; [dim_int]: is [expected_dim] an integer? *)
Record var_cfg := VarCfg {
  epsilon : R; nn : int; dim : R; dim_int : bool; beta : R; symmetrize : bool }.

(** kernels.py 2381. *)
Definition alpha (c : var_cfg) : R := - dim c / 4%:R.

(** kernels.py 2382-2388. *)
Definition c2 (c : var_cfg) : R :=
  1 / 2%:R - 2%:R * alpha c + 2%:R * dim c * alpha c + dim c * beta c / 2%:R + beta c.

(** kernels.py 2364-2395 [__init__]: is the configuration accepted?  The three checks look at the
    type of [expected_dim] (a number that is not an integer is a float). *)
Definition accepts (c : var_cfg) : bool :=
  if (dim c <= 0) && ~~ dim_int c then false
  else if (epsilon c < 0) && ~~ ~~ ~~ dim_int c then false
  else if (nn c <= 0) && ~~ dim_int c then false
  else if 0 <= c2 c then false
  else true.

Definition mean n (v : 'rV[R]_n) : R := (\sum_j v 0 j) / n%:R.
Definition seq_mean (s : seq R) : R := (\sum_(x <- s) x) / (size s)%:R.

(** kernels.py 2415-2428 [_compute_rho0] with MODE = 1: [[:, 1 : k + 1]] of the sorted
    distances. *)
Definition compute_rho0 n (k : nat) (D : 'M[R]_n) : 'rV[R]_n :=
  \row_i (let sorted := sort <=%R [seq Num.sqrt (D i j) | j <- enum 'I_n] in
          let nearest := take k (drop 1 sorted) in
          Num.sqrt (seq_mean [seq x ^+ 2 | x <- nearest])).

(** kernels.py 58-186 [_symmetric_matrix_division] with a scalar. *)
Definition sym_division_scalar n (M : 'M[R]_n) (v : 'rV[R]_n) (a : R) : option 'M[R]_n :=
  match sym_division M v true with
  | None => None
  | Some A => Some (if a == 1 then A else (1 / a) *: A)
  end.

(** kernels.py 2464-2485 [_compute_q0]. *)
Definition compute_q0 (c : var_cfg) n (D : 'M[R]_n) (rho0 : 'rV[R]_n) : option 'rV[R]_n :=
  let meanrho0 := mean rho0 in
  let rho0tilde := map_mx (fun x => x / meanrho0) rho0 in
  let eps0 := meanrho0 ^+ 2 in
  match sym_division_scalar (- D) rho0tilde (2%:R * eps0) with
  | None => None
  | Some E =>
      Some (\row_i (pow (twopi * eps0) (- dim c / 2%:R) / (pow (rho0 0 i) (dim c) * n%:R)
                    * \sum_j exp (E i j)))
  end.

(** kernels.py 2487-2492 [_compute_rho]. *)
Definition compute_rho (c : var_cfg) n (q0 : 'rV[R]_n) : 'rV[R]_n :=
  let rho := map_mx (fun x => pow x (beta c)) q0 in
  map_mx (fun x => x / mean rho) rho.

(** kernels.py 2494-2499 [_compute_kernel_eps_s]. *)
Definition compute_kernel_eps_s (c : var_cfg) n (D : 'M[R]_n) (rho : 'rV[R]_n) : option 'M[R]_n :=
  match sym_division_scalar D rho (- 4%:R * epsilon c) with
  | None => None
  | Some E => Some (map_mx exp E)
  end.

(** kernels.py 2501-2504 [_compute_q_eps_s]. *)
Definition compute_q_eps_s (c : var_cfg) n (K : 'M[R]_n) (rho : 'rV[R]_n) : 'rV[R]_n :=
  \row_i \sum_j (K i j / pow (rho 0 i) (dim c)).

(** kernels.py 2506-2511 [_compute_kernel_eps_alpha_s]. *)
Definition compute_kernel_eps_alpha_s (c : var_cfg) n (K : 'M[R]_n) (q : 'rV[R]_n) : option 'M[R]_n :=
  sym_division K (map_mx (fun x => pow x (alpha c)) q) true.

(** kernels.py 2513-2517 [_compute_matrix_l]. *)
Definition compute_matrix_l (c : var_cfg) n (K : 'M[R]_n) (rho : 'rV[R]_n) : 'M[R]_n :=
  \matrix_(i, j) ((K i j - (1%:M : 'M[R]_n) i j) / (epsilon c * rho 0 i ^+ 2)).

(** kernels.py 2519-2535 [_compute_matrix_l_conjugate]: the matrix and the diagonal of the basis
    change. *)
Definition compute_matrix_l_conjugate n (K : 'M[R]_n) (rho q : 'rV[R]_n) : 'M[R]_n * 'rV[R]_n :=
  let s := \row_i (rho 0 i * Num.sqrt (q 0 i))^-1 in
  let p_sq_inv := \row_i (rho 0 i ^+ 2)^-1 in
  let L := mat_dot_diagmat (diagmat_dot_mat s K) s - (diag_mx p_sq_inv - 1%:M) in
  (remove_noise L, s).

(** kernels.py 2562-2600 [evaluate]: the operator, the basis change and the kernel matrix before
    the last step (the assertions about the symmetry hold by construction of the distances). *)
Definition evaluate (c : var_cfg) n (k : nat) (D : 'M[R]_n) : option ('M[R]_n * option 'rV[R]_n) :=
  let rho0 := compute_rho0 k D in
  match compute_q0 c D rho0 with
  | None => None
  | Some q0 =>
      let rho := compute_rho c q0 in
      match compute_kernel_eps_s c D rho with
      | None => None
      | Some K =>
          match compute_kernel_eps_alpha_s c K (compute_q_eps_s c K rho) with
          | None => None
          | Some Ka =>
              if symmetrize c then
                let: (L, s) := compute_matrix_l_conjugate Ka rho (row_sums Ka) in
                Some (L, Some s)
              else Some (compute_matrix_l c Ka rho, None)
          end
      end
  end.

(** kernels.py 2537-2560 [__call__] and dmap.py 751-792 [fit]: generator_matrix_, eigenvalues_
    and eigenvectors_ (for a positive number of neighbours; numpy's power of a negative number
    is NaN). *)
Definition var_fit (c : var_cfg) n k (eig : eig_t R k) (D : 'M[R]_n)
  : option ('M[R]_n * 'rV[R]_k * 'M[R]_(n, k)) :=
  if (n%:Z < nn c) then None else
  match evaluate c `|nn c|%N D with
  | None => None
  | Some (L, basis) =>
      match solve_eigenproblem eig L basis with
      | None => None
      | Some (e, V) =>
          let G := match basis with Some s => unsymmetric_kernel L s | None => L end in
          Some (G, map_mx (fun x => pow x (1 / epsilon c)) e, Num.sqrt n%:R *: V)
      end
  end.

End Model.
