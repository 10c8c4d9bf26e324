(** * Koopman eigenfunctions and the ranking of Koopman triplets (proof-free).

    Source: datafold/appfold/edmd.py (edmd.py).  Complex numbers are a numerically closed field
    (exact arithmetic).  The dictionary values are a matrix with one sample per row; the frame
    returned by the code has the rows of that matrix (general.py 436-470). *)

From mathcomp Require Import all_ssreflect fingroup perm all_algebra.
From Verif Require Import LinModel.
Import Order.Theory GRing.Theory Num.Theory.
Set Implicit Arguments.
Unset Strict Implicit.
Unset Printing Implicit Defensive.
Local Open Scope ring_scope.

Section Eigenfunction.
Variable F : fieldType.
Variable lstsq : lstsq_t F.

(** edmd.py 347-401 [koopman_eigenfunction], after the dictionary transformation; [V], [L]: right
    and (optional) left eigenvectors of the DMD model in spectral mode. *)
Definition koopman_eigenfunction s n r (V : 'M[F]_(n, r)) (L : option 'M[F]_(r, n)) (X_dict : 'M[F]_(s, n))
  : 'M[F]_(s, r) :=
  (compute_spectral_system_states lstsq V L X_dict^T)^T.

End Eigenfunction.

Section Ranking.
Variable C : numClosedFieldType.
Variable lstsq : lstsq_t C.
(** [np.argsort]: the positions of the elements in increasing order. *)
Variable argsort : forall r, ('I_r -> C) -> 'S_r.

(** edmd.py 640-644: [np.linalg.norm(modes, axis=0)] and the mean over the initial conditions. *)
Definition factor p r (modes : 'M[C]_(p, r)) (j : 'I_r) : C := sqrtC (\sum_i `|modes i j| ^+ 2).

Definition triplet_importance p r m (modes : 'M[C]_(p, r)) (ic : 'M[C]_(r, m)) (j : 'I_r) : C :=
  (\sum_k `|factor modes j * ic j k|) / m%:R.

(** edmd.py 646: [np.argsort(...)[::-1]]. *)
Definition reversed r (s : 'S_r) : 'S_r := perm (inj_comp (@perm_inj _ s) (@rev_ord_inj r)).

(** edmd.py 600-666 [_sort_koopman_triplets]; the rows of [X_ic] are the dictionary values of the
    initial states. *)
Definition sort_triplets s n r p (X_ic : 'M[C]_(s, n))
    (t : 'M[C]_(p, r) * 'rV[C]_r * 'M[C]_(n, r) * option 'M[C]_(r, n)) :=
  let: (modes, eigenvalues, V, L) := t in
  let ic := compute_spectral_system_states lstsq V L X_ic^T in
  let order := reversed (argsort (triplet_importance modes ic)) in
  sort_koopman_triplets order (modes, eigenvalues, V, L).

End Ranking.
