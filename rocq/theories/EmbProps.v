(** * C39, C40, C41: Roseland, jointly smooth functions, geometric harmonics. *)

From mathcomp Require Import all_ssreflect all_algebra.
From Verif Require Import LinModel KernModel KernSpec KernProofs EmbModel EmbSpec EmbProofs EmbExample.
Import Order.Theory GRing.Theory Num.Theory.
Set Implicit Arguments.
Unset Strict Implicit.
Unset Printing Implicit Defensive.
Local Open Scope ring_scope.

(** ** C39: transforming the training points with time_exponent = 0 gives the result of
    fit_transform, for every kernel matrix, landmark set and selection of coordinates. *)
Theorem C39_transform_training_points :
  forall (R : rcfType) n l k c (svd : svd_t R k) (K : 'M[R]_(n, l)) f (sel : 'I_c -> 'I_k),
  SvdSolver svd -> rose_fit_model svd K = Some f -> (forall j, svdvalues f 0 (sel j) != 0) ->
  rose_transform f sel None K = rose_fit_transform f sel.
Proof. by move=> R n l k c svd K f sel HS HF Hs; exact: (rose_training None HS HF Hs). Qed.
Print Assumptions C39_transform_training_points.

(** With a time exponent, transform scales the coordinates and fit_transform does not. *)
Theorem C39_time_exponent :
  forall (R : rcfType) n l k c (svd : svd_t R k) (K : 'M[R]_(n, l)) f (sel : 'I_c -> 'I_k) (p : R -> R),
  SvdSolver svd -> rose_fit_model svd K = Some f -> (forall j, svdvalues f 0 (sel j) != 0) ->
  forall i j, rose_transform f sel (Some p) K i j
              = rose_fit_transform f sel i j * p (svdvalues f 0 (sel j)).
Proof.
move=> R n l k c svd K f sel p HS HF Hs i j.
by rewrite (rose_training (Some p) HS HF Hs) mul_mx_diag !mxE.
Qed.
Print Assumptions C39_time_exponent.

Theorem C39_time_exponent_refuted :
  forall R : rcfType, exists (svd : svd_t R 2) (K : 'M[R]_2) f,
  SvdSolver svd /\ Nonneg K /\ PositiveRows (K *m K^T) /\ rose_fit_model svd K = Some f /\
  (forall j, svdvalues f 0 j != 0) /\
  rose_transform f id (Some (fun x => x ^+ 2)) K != rose_fit_transform f id.
Proof. exact: rose_example. Qed.
Print Assumptions C39_time_exponent_refuted.

(** The coordinates are eigenvectors of the Markov matrix of the landmark affinities K K^T,
    the eigenvalues are the squares of the singular values. *)
Theorem C39_landmark_diffusion :
  forall (R : rcfType) n l k (svd : svd_t R k) (K : 'M[R]_(n, l)) f (P : 'M[R]_n),
  SvdSolver svd -> PositiveRows (K *m K^T) -> Markov (K *m K^T) P -> rose_fit_model svd K = Some f ->
  EigenPairs P (\row_j svdvalues f 0 j ^+ 2) (rose_fit_transform f id).
Proof.
move=> R n l k svd K f P HS HP HM HF; have -> : rose_fit_transform f id = svdvec_left f.
  by apply/matrixP => i j; rewrite mxE.
exact: rose_markov HS HP HM HF.
Qed.
Print Assumptions C39_landmark_diffusion.

(** ** C40: two data splits.  The functions are orthonormal. *)
Theorem C40_orthonormal :
  forall (R : rcfType) s p1 p2 n (W1 : 'M[R]_(s, p1)) (W2 : 'M[R]_(s, p2)) (svd : full_svd_t R) sv F,
  Orthonormal W1 -> Orthonormal W2 -> FullSvd svd ->
  jsf_vectors svd n W1 W2 = Some (sv, F) -> Orthonormal F.
Proof.
move=> R s p1 p2 n W1 W2 svd sv F H1 H2 HS.
case ES: (svd p1 p2 (W1^T *m W2)) => [[[Q s'] T]|]; last by rewrite /jsf_vectors ES.
by rewrite (jsf_form n ES) => -[_ <-]; exact: jsf_orthonormal H1 H2 HS _ _ _ ES.
Qed.
Print Assumptions C40_orthonormal.

(** Their extension at the training points: each function comes back multiplied with
    (1 + singular value)/2. *)
Theorem C40_extension_at_training_points :
  forall (R : rcfType) s p1 p2 n (W1 : 'M[R]_(s, p1)) (W2 : 'M[R]_(s, p2)) (K1 K2 : 'M[R]_s)
         (e1 : 'rV[R]_p1) (e2 : 'rV[R]_p2) (svd : full_svd_t R) sv F Y,
  Orthonormal W1 -> Orthonormal W2 -> FullSvd svd ->
  EigenPairs K1 e1 W1 -> EigenPairs K2 e2 W2 -> (forall j, e1 0 j != 0) -> (forall j, e2 0 j != 0) ->
  jsf_vectors svd n W1 W2 = Some (sv, F) -> jsf_transform W1 W2 e1 e2 F K1 K2 = Some Y ->
  forall i (j : 'I_(n_functions n p1 p2)) (j' : 'I_(minn p1 p2)), val j = val j' ->
    Y i j = F i j * ((1 + sv 0 j') / 2%:R).
Proof.
move=> R s p1 p2 n W1 W2 K1 K2 e1 e2 svd sv F Y H1 H2 HS E1 E2 N1 N2.
case ES: (svd p1 p2 (W1^T *m W2)) => [[[Q s'] T]|]; last by rewrite /jsf_vectors ES.
rewrite (jsf_form n ES) => -[<- <-] HY i j j' Hj.
rewrite (jsf_extend H1 H2 HS ES E1 E2 N1 N2 HY); set G := _ *: _.
rewrite mul_mx_diag [LHS]mxE.
by congr (_ * _); rewrite !mxE; congr ((1 + s' 0 _) / _); apply/val_inj.
Qed.
Print Assumptions C40_extension_at_training_points.

(** So a function with a singular value below one is not reproduced. *)
Theorem C40_extension_refuted :
  forall R : rcfType, exists s (W1 W2 : 'M[R]_(s, 2)) (K1 K2 : 'M[R]_s) (e1 e2 : 'rV[R]_2) (svd : full_svd_t R) sv F Y,
  Orthonormal W1 /\ Orthonormal W2 /\ FullSvd svd /\
  EigenPairs K1 e1 W1 /\ EigenPairs K2 e2 W2 /\ (forall j, e1 0 j != 0) /\ (forall j, e2 0 j != 0) /\
  jsf_vectors svd 1 W1 W2 = Some (sv, F) /\ jsf_transform W1 W2 e1 e2 F K1 K2 = Some Y /\ Y <> F.
Proof.
move=> R; have [W1 [W2 [K1 [K2 [e1 [e2 [svd [sv [F [Y [H1 [H2 [HS [E1 [E2 [N1 [N2 [EF [EY Hlt]]]]]]]]]]]]]]]]]]] := jsf_example R.
exists (2 + 2)%N, W1, W2, K1, K2, e1, e2, svd, sv, F, Y; do !split=> //.
move=> EYF; have HF := C40_orthonormal H1 H2 HS EF.
have X i : F i 0 * ((1 - sv 0 0) / 2%:R) = 0.
  have := C40_extension_at_training_points H1 H2 HS E1 E2 N1 N2 EF EY i (j := 0) (j' := 0) erefl.
  by rewrite EYF => E; exact: half_scaling.
have : \sum_l F l 0 * F l 0 = 0.
  rewrite big1 // => i _; move/eqP: (X i); rewrite mulf_eq0 => /orP[/eqP ->|]; first by rewrite mul0r.
  by rewrite mulf_eq0 invr_eq0 pnatr_eq0 orbF subr_eq0 eq_sym lt_eqF ?Hlt.
by rewrite (HF 0 0) => /eqP; rewrite oner_eq0.
Qed.
Print Assumptions C40_extension_refuted.

(** If at least as many functions are requested as one of the splits has eigenvectors, fit
    succeeds with fewer functions and every transform fails. *)
Theorem C40_too_many_functions_refuted :
  forall (R : rcfType) m s p1 p2 n (W1 : 'M[R]_(s, p1)) (W2 : 'M[R]_(s, p2)) (e1 : 'rV[R]_p1) (e2 : 'rV[R]_p2)
         F (K1 K2 : 'M[R]_(m, s)),
  (0 < n)%N -> (p1 <= n)%N || (p2 <= n)%N ->
  jsf_transform (n := n) W1 W2 e1 e2 F K1 K2 = None.
Proof.
move=> R m s p1 p2 n W1 W2 e1 e2 F K1 K2 Hn Hp; rewrite /jsf_transform; case: ifP => // /eqP E.
have : (n <= minn p1.-1 p2.-1)%N by rewrite -{1}E geq_minr.
rewrite leq_min => /andP[A B]; case/orP: Hp => Hp.
  by case: p1 W1 e1 F Hp A E => [|p1] W1 e1 F Hp A E; [rewrite leqNgt Hn in A|have := leq_trans Hp A; rewrite ltnn].
by case: p2 W2 e2 F Hp B E => [|p2] W2 e2 F Hp B E; [rewrite leqNgt Hn in B|have := leq_trans Hp B; rewrite ltnn].
Qed.
Print Assumptions C40_too_many_functions_refuted.

(** Three and more splits: the functions are orthonormal; the extension multiplies them with
    the squared singular value divided by the number of splits. *)
Theorem C40_multi_orthonormal :
  forall (R : rcfType) s k (svd : svd_t R k) (ws : seq (split R s)) sv F, SvdSolver svd ->
  jsf_vectors_multi svd ws = Some (sv, F) -> Orthonormal F.
Proof. exact: jsf_multi_orthonormal. Qed.
Print Assumptions C40_multi_orthonormal.

Theorem C40_multi_extension :
  forall (R : rcfType) s k (svd : svd_t R k) (ks : seq (split R s * 'M[R]_s)) sv F, SvdSolver svd ->
  (forall wk, List.In wk ks -> EigenPairs wk.2 (evals wk.1) (evecs wk.1) /\ forall j, evals wk.1 0 j != 0) ->
  jsf_vectors_multi svd [seq wk.1 | wk <- ks] = Some (sv, F) ->
  forall i j, jsf_transform_multi F ks i j = F i j * (sv 0 j ^+ 2 / (size ks)%:R).
Proof.
move=> R s k svd ks sv F HS H HF i j.
by rewrite (jsf_multi_extend HS H HF) mul_mx_diag !mxE.
Qed.
Print Assumptions C40_multi_extension.

Example C40_multi_example :
  forall R : rcfType, exists (svd : svd_t R 2) (ks : seq (split R 2 * 'M[R]_2)) sv F,
  SvdSolver svd /\ size ks = 3%N /\
  (forall wk, List.In wk ks -> EigenPairs wk.2 (evals wk.1) (evecs wk.1) /\ forall j, evals wk.1 0 j != 0) /\
  jsf_vectors_multi svd [seq wk.1 | wk <- ks] = Some (sv, F).
Proof. exact: jsf_multi_example. Qed.

(** ** C41: with a symmetric kernel, not stochastic, the prediction at the training points is
    the orthogonal projection of the targets on the span of the eigenvectors. *)
Theorem C41_projection :
  forall (R : rcfType) n k p (eig : eig_t R k) (c : dmap_cfg R) (K : 'M[R]_n) f (y : 'M[R]_(n, p)),
  EigenSolver eig -> OrthonormalSolver eig -> is_stochastic c = false -> Symmetric K ->
  fit eig c K = Some f -> (forall j, eigenvalues f 0 j != 0) ->
  exists Y, ghi_predict c f y K = Some Y /\ Projection (eigenvectors f) y Y.
Proof. exact: ghi_projection. Qed.
Print Assumptions C41_projection.

(** Targets in that span are reproduced. *)
Theorem C41_band_limited :
  forall (R : rcfType) n k p (eig : eig_t R k) (c : dmap_cfg R) (K : 'M[R]_n) f (y : 'M[R]_(n, p)),
  EigenSolver eig -> OrthonormalSolver eig -> is_stochastic c = false -> Symmetric K ->
  fit eig c K = Some f -> (forall j, eigenvalues f 0 j != 0) ->
  (exists C, y = eigenvectors f *m C) -> ghi_predict c f y K = Some y.
Proof.
move=> R n k p eig c K f y HE HO Hc HS HF He Hy.
have [Y [-> HP]] := ghi_projection y HE HO Hc HS HF He.
by rewrite (projection_span (ghi_orthonormal HO Hc HS HF) HP Hy).
Qed.
Print Assumptions C41_band_limited.

Example C41_example :
  forall R : rcfType, exists (eig : eig_t R 2) (K : 'M[R]_3) f,
  let c := DmapCfg false false id true true in
  EigenSolver eig /\ OrthonormalSolver eig /\ Symmetric K /\
  fit eig c K = Some f /\ (forall j, eigenvalues f 0 j != 0) /\ K (inord 0) (inord 1) != 0.
Proof. exact: ghi_projection_example. Qed.

(** In general the prediction is Psi Psi^T y ... *)
Theorem C41_any_kernel :
  forall (R : rcfType) n k p (eig : eig_t R k) (c : dmap_cfg R) (K : 'M[R]_n) f (y : 'M[R]_(n, p)),
  EigenSolver eig -> (distance_symmetric c -> Symmetric K) ->
  PositiveRows K -> Nonneg K -> (forall x, 0 < x -> 0 < pow_alpha c x) ->
  fit eig c K = Some f -> (forall j, eigenvalues f 0 j != 0) ->
  ghi_predict c f y K = Some (eigenvectors f *m ((eigenvectors f)^T *m y)).
Proof. exact: ghi_training. Qed.
Print Assumptions C41_any_kernel.

(** ... which is not a projection for a stochastic kernel: the constant function, which is an
    eigenvector, is predicted as 31/33 instead of 1 at the first training point. *)
Theorem C41_stochastic_refuted :
  forall R : rcfType, exists (eig : eig_t R 2) (K : 'M[R]_3) f Y,
  let c := DmapCfg true false id false true in
  EigenSolver eig /\ OrthonormalSolver eig /\ Symmetric K /\ PositiveRows K /\ Nonneg K /\
  fit eig c K = Some f /\ (forall j, eigenvalues f 0 j != 0) /\
  ghi_predict c f (const_mx 1 : 'cV[R]_3) K = Some Y /\
  (exists C, (const_mx 1 : 'cV[R]_3) = eigenvectors f *m C) /\
  Y (inord 0) 0 = 31%:R / 33%:R.
Proof. exact: ghi_constant_example. Qed.
Print Assumptions C41_stochastic_refuted.
