(** * C35, C36, C37, C55: diffusion map kernels and embeddings. *)

From mathcomp Require Import all_ssreflect all_algebra.
From Verif Require Import RingTac LinModel LinSpec KernModel KernSpec KernProofs KernExample.
Import Order.Theory GRing.Theory Num.Theory.
Set Implicit Arguments.
Unset Strict Implicit.
Unset Printing Implicit Defensive.
Local Open Scope ring_scope.

(** ** C35: the conjugate matrix of a symmetric kernel with positive row sums exists and is
    symmetric, with the documented entries. *)
Theorem C35_conjugate_symmetric :
  forall (R : rcfType) n (K : 'M[R]_n), Symmetric K -> PositiveRows K ->
  exists A d, conjugate_kernel K = Some (A, d) /\ Symmetric A /\
    (forall i j, A i j = K i j / (Num.sqrt (\sum_k K i k) * Num.sqrt (\sum_k K j k))) /\
    (forall i, d 0 i = (Num.sqrt (\sum_k K i k))^-1).
Proof.
move=> R n K HS HP; have [A [d [E [HA Hd]]]] := conjugate_entries HS HP.
by exists A, d; do !split=> //; move=> i j; rewrite !HA (HS j i); congr (_ / _); apply: mulrC.
Qed.
Print Assumptions C35_conjugate_symmetric.

(** Its eigenpairs are, after the basis change, exactly those of the Markov matrix. *)
Theorem C35_same_eigenpairs :
  forall (R : rcfType) n k (K A P : 'M[R]_n) d (e : 'rV[R]_k) V,
  Symmetric K -> PositiveRows K -> conjugate_kernel K = Some (A, d) -> Markov K P ->
  (EigenPairs A e V <-> EigenPairs P e (diag_mx d *m V)).
Proof. exact: conjugate_eigen. Qed.
Print Assumptions C35_same_eigenpairs.

(** Undoing the basis change gives the Markov matrix. *)
Theorem C35_undo_basis_change :
  forall (R : rcfType) n (K A : 'M[R]_n) d, Symmetric K -> PositiveRows K ->
  conjugate_kernel K = Some (A, d) -> Markov K (unsymmetric_kernel A d).
Proof. exact: unsymmetric_markov. Qed.
Print Assumptions C35_undo_basis_change.

(** A point without any mass is an error. *)
Theorem C35_zero_row_rejected :
  forall (R : rcfType) n (K : 'M[R]_n) i, \sum_j K i j = 0 -> conjugate_kernel K = None.
Proof. exact: conjugate_zero_row. Qed.
Print Assumptions C35_zero_row_rejected.

(** The conjugation is applied whenever symmetrize_kernel is set and the distance is
    symmetric, also if the internal kernel is not: then the spectrum is another one.  Here
    the Markov matrix has the eigenvalue 1, as always, the conjugate matrix has not. *)
Theorem C35_unsymmetric_internal_kernel_refuted :
  forall R : rcfType, exists (K A P : 'M[R]_2) d, PositiveRows K /\ Nonneg K /\
    normalize_pdist (DmapCfg true false id true true) K = Some (A, Some d, None) /\
    Markov K P /\ (exists v : 'cV[R]_2, v != 0 /\ P *m v = v) /\
    (forall v : 'cV[R]_2, A *m v = v -> v = 0).
Proof. exact: unsymmetric_example. Qed.
Print Assumptions C35_unsymmetric_internal_kernel_refuted.

(** ** C36: rows of the stochastic kernel matrix *)
Theorem C36_rows :
  forall (R : rcfType) m n (K : 'M[R]_(m, n)) i, Nonneg K ->
  (0 < \sum_j K i j -> Distribution (row i K) (row i (stochastic_kernel K))) /\
  (\sum_j K i j = 0 -> row i (stochastic_kernel K) = 0).
Proof. exact: stochastic_row. Qed.
Print Assumptions C36_rows.

(** The sparse code computes the same matrix. *)
Theorem C36_sparse_same :
  forall (R : rcfType) m n (K : 'M[R]_(m, n)), Nonneg K ->
  stochastic_kernel_sparse K = stochastic_kernel K.
Proof. exact: stochastic_sparse_eq. Qed.
Print Assumptions C36_sparse_same.

(** The pair-wise re-normalisation keeps symmetry and divides by the (powers of the) sums. *)
Theorem C36_renormalisation :
  forall (R : rcfType) n (c : dmap_cfg R) (K K' : 'M[R]_n) rs, Symmetric K ->
  density_pdist c K = Some (K', rs) ->
  Symmetric K' /\ forall i j, K' i j = K i j / (pow_alpha c (\sum_k K i k) * pow_alpha c (\sum_k K j k)).
Proof. exact: density_symmetric. Qed.
Print Assumptions C36_renormalisation.

(** Without re-normalisation a point without neighbours gets a zero row; with it the whole
    evaluation fails. *)
Theorem C36_isolated_point :
  forall (R : rcfType) m n (c : dmap_cfg R) fit (K : 'M[R]_(m, n)) i,
  is_stochastic c -> \sum_j K i j = 0 -> pow_alpha c 0 = 0 -> Nonneg K ->
  normalize_cdist c fit K
  = if alpha_positive c then None else Some (stochastic_kernel K).
Proof.
move=> R m n c fit K i Hs Hi Hp HN; rewrite /normalize_cdist Hs /=.
case: (alpha_positive c) => //; case: fit => // rs.
by rewrite (@density_cdist_zero R m n c rs K i) // Hi.
Qed.
Print Assumptions C36_isolated_point.

Example C36_example :
  forall R : rcfType, exists K : 'M[R]_2, Nonneg K /\ 0 < \sum_j K ord0 j /\ \sum_j K ord_max j = 0.
Proof.
move=> R; exists (\matrix_(i, j) (if i == ord0 then 1 else 0)); split; last split.
- by move=> i j; rewrite mxE; case: ifP => _; rewrite ?ler01 ?lexx.
- by rewrite !big_ord_recl big_ord0 !mxE /= addr0 addr_gt0 ?ltr01.
- by rewrite !big_ord_recl big_ord0 !mxE /= !addr0.
Qed.

(** ** C37: transforming the training points gives the result of fit_transform, for every
    configuration (stochastic or not, with and without re-normalisation, conjugate or not),
    every selection of coordinates and every time exponent.  The solver is only assumed to
    return eigenpairs of the matrix it is given. *)
Theorem C37_transform_training_points :
  forall (R : rcfType) n k l (eig : eig_t R k) (c : dmap_cfg R) (K : 'M[R]_n) f
         (sel : 'I_l -> 'I_k) (texp : option (R -> R)),
  EigenSolver eig -> (distance_symmetric c -> Symmetric K) ->
  PositiveRows K -> Nonneg K -> (forall x, 0 < x -> 0 < pow_alpha c x) ->
  fit eig c K = Some f -> (forall j, eigenvalues f 0 (sel j) != 0) ->
  transform c f sel texp K = fit_transform f sel texp.
Proof. exact: transform_train. Qed.
Print Assumptions C37_transform_training_points.

(** What fit_transform returns: the eigenvectors, scaled with the powers of the eigenvalues. *)
Theorem C37_embedding :
  forall (R : rcfType) n k (f : dmap_fit R n k) (p : R -> R),
  (forall l (sel : 'I_l -> 'I_k),
     fit_transform f sel None = Some (existT _ l (\matrix_(i, j) eigenvectors f i (sel j)))) /\
  fit_transform f id (Some p)
    = Some (existT _ k (\matrix_(i, j) (p (eigenvalues f 0 j) * eigenvectors f i j))).
Proof.
move=> R n k f p; split=> [l sel //|]; rewrite /fit_transform embedding_all.
by congr Some; congr existT; apply/matrixP => i j; rewrite !mxE.
Qed.
Print Assumptions C37_embedding.

Example C37_example :
  forall R : rcfType, exists (eig : eig_t R 2) (c : dmap_cfg R) (K : 'M[R]_2) f,
  EigenSolver eig /\ Symmetric K /\ PositiveRows K /\ Nonneg K /\
  (forall x, 0 < x -> 0 < pow_alpha c x) /\ is_conjugate c /\ alpha_positive c /\
  fit eig c K = Some f /\ (forall j, eigenvalues f 0 j != 0) /\ K 0 1 != 0.
Proof. exact: dmap_example. Qed.

(** With selected coordinates and a time exponent other than zero both fail ... *)
Theorem C37_selected_with_exponent_refuted :
  forall (R : rcfType) n k l (f : dmap_fit R n k) (sel : 'I_l -> 'I_k) (p : R -> R),
  l != k -> l != 1%N -> k != 1%N -> fit_transform f sel (Some p) = None.
Proof. by move=> R n k l f sel p H1 H2 H3; exact: embedding_mismatch. Qed.
Print Assumptions C37_selected_with_exponent_refuted.

(** ... or, for a single selected coordinate, return as many columns as there are eigenpairs. *)
Theorem C37_single_coordinate_refuted :
  forall (R : rcfType) n k (f : dmap_fit R n k) (sel : 'I_1 -> 'I_k) (p : R -> R),
  k != 1%N -> exists B : 'M[R]_(n, k), fit_transform f sel (Some p) = Some (existT _ k B).
Proof. by move=> R n k f sel p H; exact: embedding_single. Qed.
Print Assumptions C37_single_coordinate_refuted.

(** ** C55: the pre-image of the embedded training points is the least squares
    reconstruction; data in the span of the selected eigenvectors are recovered. *)
Theorem C55_preimage_of_embedding :
  forall (R : rcfType) n k l p (lstsq : lstsq_t R) (f : dmap_fit R n k) (sel : 'I_l -> 'I_k)
         (X : 'M[R]_(n, p)) Z,
  solves_consistent lstsq -> fit_transform f sel None = Some (existT _ l Z) ->
  (exists C, X = select_vectors sel (eigenvectors f) *m C) ->
  inverse_transform lstsq f sel X Z = X.
Proof. exact: preimage_train. Qed.
Print Assumptions C55_preimage_of_embedding.

(** With a time exponent the pre-image is computed from the unscaled eigenvectors: the
    training data come back with wrong weights. *)
Theorem C55_time_exponent_refuted :
  forall R : rcfType, exists (eig : eig_t R 2) (K : 'M[R]_2) (f : dmap_fit R 2 2) (lstsq : lstsq_t R)
    (X : 'M[R]_(2, 1)) Z,
  EigenSolver eig /\ solves_consistent lstsq /\
  fit eig (DmapCfg false false id true true) K = Some f /\ Symmetric K /\ PositiveRows K /\
  fit_transform f id (Some id) = Some (existT _ 2%N Z) /\
  (exists C, X = eigenvectors f *m C) /\ inverse_transform lstsq f id X Z = 2%:R *: X /\ X != 0.
Proof. exact: preimage_example. Qed.
Print Assumptions C55_time_exponent_refuted.
