(** * Kernel eigenvectors and threshold of the jointly smooth functions (proof-free).

    Source: datafold/dynfold/jsf.py (jsf.py).  The functions themselves are modelled in EmbModel
    ([jsf_vectors] for two data splits, [jsf_vectors_multi] for more).  Exact arithmetic in a real
    closed field, dense kernels; types of the parameters are assumed to be right (jsf.py 109-126). *)

From mathcomp Require Import all_ssreflect all_algebra.

From Verif Require Import Np LinModel KernModel EmbModel.
Import Order.Theory GRing.Theory Num.Theory.
Set Implicit Arguments.
Unset Strict Implicit.
Unset Printing Implicit Defensive.
Local Open Scope ring_scope.

Section Model.
Variable R : rcfType.

(** jsf.py 115-119 and 128-149 [_validate_parameter]: at least two splits, unique names, at least
    one eigenvector and function, no negative cut-off; names are numbers. *)
Definition validate_parameter (names : seq nat) (n_eigenvectors n_functions : nat) (cut_off : R) : result unit :=
  if (size names <= 1)%N then Err ValueError
  else if ~~ uniq names then Err ValueError
  else if (n_eigenvectors < 1)%N then Err ValueError
  else if (n_functions < 1)%N then Err ValueError
  else if cut_off < 0 then Err ValueError
  else Ok tt.

(** jsf.py 173-180: the pairs with eigenvalues above the cut-off, in the given order. *)
Definition cut_pairs s k (cut_off : R) (e : 'rV[R]_k) (V : 'M[R]_(s, k)) : split R s :=
  let kept := [seq i <- enum 'I_k | cut_off < e 0 i] in
  Split (\matrix_(i < s, j < size kept) V i (tnth (in_tuple kept) j))
        (\row_(j < size kept) e 0 (tnth (in_tuple kept) j)).

(** jsf.py 151-182 [_compute_kernel_eigenpairs]; the kernel matrices by split.  [eig] is
    [compute_kernel_eigenpairs] (C48), None for its exceptions. *)
Definition kernel_eigenpairs s k (eig : eig_t R k) (cut_off : R) (ks : seq 'M[R]_s) : option (seq (split R s)) :=
  foldr (fun K acc => match eig s K, acc with
                      | Some (e, V), Some ws => Some (cut_pairs cut_off e V :: ws)
                      | _, _ => None
                      end) (Some [::]) ks.

(** [scipy.sparse.linalg.svds(A, k, return_singular_vectors=False)]. *)
Definition svds_t := forall m n : nat, 'M[R]_(m, n) -> nat -> result (seq R).

(** jsf.py 487-519 [compute_E0]: [shuffle] permutes the rows of the eigenvectors of the last split.
    The shuffled matrix is used for two splits only: line 501 stacks the list without it. *)
Definition compute_E0 s (shuffle : forall p, 'M[R]_(s, p) -> 'M[R]_(s, p)) (svds : svds_t) (n_functions : nat)
    (ws : seq (split R s)) : result R :=
  let gamma := match ws with
               | [:: w1; w2] => svds _ _ ((evecs w1)^T *m shuffle _ (evecs w2)) n_functions
               | _ => svds _ _ (tagged (stack ws)) n_functions
               end in
  bind gamma (fun g =>
  let g := sort (fun x y => y <= x) g in
  if (2 < size g)%N then Ok ((1 + nth 0 g 2) / 2%:R) else Err IndexError).

End Model.
