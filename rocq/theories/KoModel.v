(** * Model of kernel objects with state (proof-free).

    Source: datafold/pcfold/kernels.py (kernels.py).

    The normalisations of matrices are those of KernModel and EmbModel; here is the object: which calls it
    accepts and what it remembers.  The internal kernel is a function [k] of two points (dense matrices, one
    row for every query point, one column for every reference point).  Numbers are elements of a real closed
    field.  Data frames are treated like arrays. *)

From mathcomp Require Import all_ssreflect all_algebra.
From Verif Require Import Np LinModel KernModel EmbModel.
Import Order.Theory GRing.Theory Num.Theory.
Set Implicit Arguments.
Unset Strict Implicit.
Unset Printing Implicit Defensive.
Local Open Scope ring_scope.

Section Model.
Variable R : rcfType.
Variable p : nat.
Variable k : 'rV[R]_p -> 'rV[R]_p -> R.

(** The matrix of the internal kernel, kernels.py 1689-1694 and 1929. *)
Definition kmat n m (X : 'M[R]_(n, p)) (Y : 'M[R]_(m, p)) : 'M[R]_(m, n) := \matrix_(i, j) k (row i Y) (row j X).

Inductive kmatrix := KM m n (M : 'M[R]_(m, n)).

(** [kernel(X)] and [kernel(X, Y)] *)
Inductive call :=
| Pairwise n (X : 'M[R]_(n, p))
| Component n (X : 'M[R]_(n, p)) m (Y : 'M[R]_(m, p)).

(** A vector of another size, to be used after a comparison of the sizes. *)
Definition resized n l (v : 'rV[R]_l) : 'rV[R]_n := \row_j (if insub (val j) is Some i then v 0 i else 0).

(** ** DmapKernelFixed *)

(** The attributes row_sums_alpha_ and basis_change_matrix_; both can be None. *)
Record dm_attrs := DmAttrs {
  row_sums_alpha : option {n : nat & 'rV[R]_n};
  basis_change : option {n : nat & 'rV[R]_n} }.

(** [None]: the attributes do not exist. *)
Definition dm_state := option dm_attrs.

(** kernels.py 1658-1696 [__call__], 1631-1656 [_eval_kernel_matrix], 518-533 [_required_attrs]; the check
    of the number of reference points is kernels.py 1550-1554. *)
Definition dm_call (cfg : dmap_cfg R) (s : dm_state) (c : call) : dm_state * result kmatrix :=
  match c with
  | Pairwise n X =>
      match s with
      | Some _ => (s, Err AttributeError)
      | None =>
          match normalize_pdist cfg (kmat X X) with
          | None => (s, Err ZeroDivisionError)
          | Some (A, basis, rs) =>
              (Some (DmAttrs (omap (fun v => existT (fun n => 'rV[R]_n) n v) rs)
                             (omap (fun v => existT (fun n => 'rV[R]_n) n v) basis)),
               Ok (KM A))
          end
      end
  | Component n X m Y =>
      match s with
      | None => (s, Err AttributeError)
      | Some a =>
          let use_density := is_stochastic cfg && alpha_positive cfg in
          match row_sums_alpha a with
          | None =>
              if use_density then (s, Err AttributeError)
              else match normalize_cdist cfg None (kmat X Y) with
                   | None => (s, Err ZeroDivisionError)
                   | Some M => (s, Ok (KM M))
                   end
          | Some (existT l rs) =>
              if use_density && (l != n) then (s, Err ValueError)
              else match normalize_cdist cfg (Some (resized n rs)) (kmat X Y) with
                   | None => (s, Err ZeroDivisionError)
                   | Some M => (s, Ok (KM M))
                   end
          end
      end
  end.

(** ** RoselandKernel *)

(** The attribute stochastic_normalization_ ([None]: does not exist); landmark_density_ is None for
    alpha = 0 and is set together with it. *)
Definition rk_state := option {l : nat & 'rV[R]_l}.

(** kernels.py 1780: [scipy.sparse.spmatrix(kernel_matrix)] tries to build an object of the abstract class:
    ValueError in scipy 1.10, TypeError in scipy 1.11. *)
Variable spmatrix_error : err.

(** kernels.py 1898-1930 [__call__], 1843-1896 [_eval_kernel_matrix].  With another number of landmarks the
    product in 1823 broadcasts if one of the numbers is one. *)
Definition rk_call (alpha_positive : bool) (s : rk_state) (c : call) : rk_state * result kmatrix :=
  match c with
  | Pairwise n X => (s, Err ValueError)
  | Component n X m Y =>
      let K := kmat X Y in
      if alpha_positive then (s, Err spmatrix_error) else
      match s with
      | None => let '(M, st, _) := rose_eval None K in (Some (existT (fun l => 'rV[R]_l) n st), Ok (KM M))
      | Some (existT l st) =>
          if l == n then let '(M, _, _) := rose_eval (Some (resized n st)) K in (s, Ok (KM M))
          else if (l == 1%N) || (n == 1%N) then
            let r := \row_i ((\sum_j K i j) * (\sum_j st 0 j)) in
            let nd := \row_i (if r 0 i == 0 then 0 else (Num.sqrt (r 0 i))^-1) in
            (s, Ok (KM (diagmat_dot_mat nd K)))
          else (s, Err ValueError)
      end
  end.

(** A history of calls: the state after it. *)
Definition after St (step : St -> call -> St * result kmatrix) (s : St) (h : seq call) : St :=
  foldl (fun s c => (step s c).1) s h.

End Model.
