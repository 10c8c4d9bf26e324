(** * Theorems about the reduced rank decomposition (C92). *)

From mathcomp Require Import all_ssreflect all_algebra.
From Verif Require Import LinModel LinSpec LinProofs RedModel RedSpec RedProofs.
Import GRing.Theory.
Set Implicit Arguments.
Unset Strict Implicit.
Unset Printing Implicit Defensive.
Local Open Scope ring_scope.

(** ** C92: reduced rank. *)

(** Which requests are computed at all. *)
Theorem C92_accepts :
  forall n rank mode diagonalize weights,
  check_reduced n rank mode diagonalize weights = None <->
  [/\ (1 <= rank < n)%N, mode <> None, diagonalize = false & weights = false].
Proof.
move=> n rank mode dg w; rewrite /check_reduced; split.
- case E1 : (~~ _)=> //; case: dg=> //; case E2 : (~~ _)=> //; case: mode=> // m; case: w=> // _.
  move/negbFE/andP: E2=> [H1 H2]; split=> //; rewrite H1 /=.
  by case: n H2 {E1} => [|n]; [rewrite sub0n leqn0 => /eqP E; rewrite E in H1|rewrite subn1 ltnS].
- case=> /andP[H1 H2]; case: mode=> // m _ -> ->.
  by rewrite H1 (ltnW H2) /= ; case: n H2=> // n; rewrite ltnS subn1=> ->.
Qed.
Print Assumptions C92_accepts.

(** For every rank up to the rank of the data the reduced matrix is the (only) least squares
    solution for the snapshots expressed in the leading singular vectors. *)
Theorem C92_regression :
  forall (F : fieldType) n s r q (X Y : 'M[F]_(n, s))
         (svd : 'M[F]_(n, r + q) * 'rV[F]_(r + q) * 'M[F]_(r + q, s)),
  SVD X svd -> Leading svd ->
  forall K,
  let P := (lsubmx svd.1.1)^T in
  LeastSquares (P *m X) (P *m Y) K <-> K = reduced_system_matrix Y svd.
Proof.
move=> F n s r q X Y svd Hs Hl K /=; have HP := projected_least_squares Y Hs Hl.
have HU := projected_gram_unit Hs Hl; rewrite /LeastSquares; split=> [H|->]; last exact: HP.
by rewrite -[LHS](mulmxK HU) H -HP mulmxK.
Qed.
Print Assumptions C92_regression.

(** If the rank is the rank of the data, exact modes are eigenvectors of the least squares
    operator of minimal norm (which exists and is unique), and do not vanish for non-zero
    eigenvalues. *)
Theorem C92_exact_modes :
  forall (F : fieldType) n s r q (X Y : 'M[F]_(n, s))
         (svd : 'M[F]_(n, r + q) * 'rV[F]_(r + q) * 'M[F]_(r + q, s)) (W : 'M[F]_r) d,
  SVD X svd -> Leading svd -> NoMore svd ->
  EigenPairs (reduced_system_matrix Y svd) W d ->
  exists B, [/\ LeastSquares X Y B, MinNorm X B,
                (forall B', LeastSquares X Y B' -> MinNorm X B' -> B' = B),
                EigenPairs B (reduced_modes Exact Y svd W) d &
                forall j, d 0 j <> 0 -> col j W <> 0 -> col j (reduced_modes Exact Y svd W) <> 0].
Proof.
move=> F n s r q X Y svd W d Hs Hl Hn HE.
have [H1 H2] := least_squares_exists Y Hs Hl Hn.
eexists; split; [exact: H1|exact: H2| | |].
- by move=> B' H3 H4; exact: (least_squares_unique Hs Hl Hn H3 H4).
- exact: (exact_eigen Hs Hl Hn H1 H2 HE).
- move=> j Hd Hw H0; apply: Hw; have := congr1 (col j) (exact_coord HE).
  rewrite col_mulE H0 mulmx0 => /esym; rewrite -mat_dot_diagmatE=> Hz.
  apply/matrixP=> i k; rewrite [k]ord1 !mxE; have := congr1 (fun M : 'cV_r => M i 0) Hz.
  by rewrite !mxE=> /eqP; rewrite mulf_eq0 => /orP[/eqP|/eqP ->].
Qed.
Print Assumptions C92_exact_modes.

(** Projected modes lie in the span of the snapshots and satisfy the eigenvalue equation up to a
    vector orthogonal to all snapshots. *)
Theorem C92_projected_modes :
  forall (F : fieldType) n s r q (X Y : 'M[F]_(n, s))
         (svd : 'M[F]_(n, r + q) * 'rV[F]_(r + q) * 'M[F]_(r + q, s)) (W : 'M[F]_r) d (B : 'M[F]_n),
  SVD X svd -> Leading svd -> NoMore svd ->
  LeastSquares X Y B -> MinNorm X B ->
  EigenPairs (reduced_system_matrix Y svd) W d ->
  let Phi := reduced_modes Project Y svd W in
  InSpan X Phi /\ forall j, X^T *m (B *m col j Phi - d 0 j *: col j Phi) = 0.
Proof.
move=> F n s r q X Y svd W d B Hs Hl Hn HB HM HE Phi.
have [H1 H2] := project_galerkin Hs Hl Hn HB HM HE; split=> // j.
have := congr1 (col j) H2; rewrite col_mulE -/Phi linear0 => <-; congr (_ *m _).
rewrite linearB /= col_mulE; congr (_ - _).
by apply/matrixP=> i k; rewrite -mat_dot_diagmatE !mxE.
Qed.
Print Assumptions C92_projected_modes.

(** Data of a linear system whose snapshots span an invariant subspace of the rank: the modes of
    either kind are eigenvectors of the system, exact modes being the projected ones scaled by the
    eigenvalues. *)
Theorem C92_recovers :
  forall (F : fieldType) n s r q (A : 'M[F]_n) (X : 'M[F]_(n, s))
         (svd : 'M[F]_(n, r + q) * 'rV[F]_(r + q) * 'M[F]_(r + q, s)) (W : 'M[F]_r) d,
  SVD X svd -> Leading svd -> NoMore svd -> InSpan X (A *m X) ->
  EigenPairs (reduced_system_matrix (A *m X) svd) W d ->
  EigenPairs A (reduced_modes Project (A *m X) svd W) d /\
  EigenPairs A (reduced_modes Exact (A *m X) svd W) d /\
  forall j, col j (reduced_modes Exact (A *m X) svd W) = d 0 j *: col j (reduced_modes Project (A *m X) svd W).
Proof.
move=> F n s r q A X svd W d Hs Hl Hn HI HE.
have H1 := project_exact Hs Hl Hn (erefl (A *m X)) HI HE.
have H2 := exact_project Hs Hn HI HE.
split=> //; split.
- apply/eigenpairsE; rewrite H2 mulmxA; congr (_ *m _); exact/eigenpairsE.
- move=> j; rewrite H2 -mat_dot_diagmatE; by apply/matrixP=> i k; rewrite !mxE.
Qed.
Print Assumptions C92_recovers.

(** ... and every initial state in that subspace is predicted exactly, with projected modes always
    and with exact modes if no eigenvalue is zero. *)
Theorem C92_predicts :
  forall (F : fieldType) (lstsq : lstsq_t F) (re : F -> F) n s r q m (A : 'M[F]_n) (X : 'M[F]_(n, s))
         (svd : 'M[F]_(n, r + q) * 'rV[F]_(r + q) * 'M[F]_(r + q, s)) (W : 'M[F]_r) d
         (mode : reconstruct_mode) (X0 : 'M[F]_(n, m)) (steps : seq nat),
  solves_consistent lstsq ->
  SVD X svd -> Leading svd -> NoMore svd -> InSpan X (A *m X) ->
  EigenPairs (reduced_system_matrix (A *m X) svd) W d -> W \in unitmx ->
  (mode = Exact -> forall j, d 0 j <> 0) ->
  InSpan X X0 -> (forall k, map_mx re (trajectory A X0 k) = trajectory A X0 k) ->
  reduced_predict lstsq re mode (A *m X) svd W d X0 steps = [seq trajectory A X0 k | k <- steps].
Proof.
move=> F lstsq re n s r q m A X svd W d mode X0 steps Hlq Hs Hl Hn HI HE HW Hd H0 Hre.
transitivity [seq map_mx re (trajectory A X0 k) | k <- steps]; last by apply: eq_map.
case: mode Hd=> [/(_ erefl) Hd|_].
- exact: (exact_predicts Hs Hl Hn (erefl (A *m X)) HI).
- exact: (project_predicts Hs Hl Hn (erefl (A *m X)) HI).
Qed.
Print Assumptions C92_predicts.

(** With exact modes every predicted state is a combination of the second snapshots of the
    training pairs. *)
Theorem C92_exact_span :
  forall (F : fieldType) (lstsq : lstsq_t F) n s r q m (Y : 'M[F]_(n, s))
         (svd : 'M[F]_(n, r + q) * 'rV[F]_(r + q) * 'M[F]_(r + q, s)) (W : 'M[F]_r) d
         (X0 : 'M[F]_(n, m)) steps P,
  P \in reduced_predict lstsq id Exact Y svd W d X0 steps -> InSpan Y P.
Proof. by move=> F lstsq n s r q m Y svd W d X0 steps P; apply: exact_in_span. Qed.
Print Assumptions C92_exact_span.

(** *** concrete data: rank one in the plane *)

Definition vec2 (a b : rat) : 'cV[rat]_2 := \col_i (if val i == 0%N then a else b).
Definition one_mode (a : rat) : 'M[rat]_(2, 2) :=
  \matrix_(i, j) (if (val i == 0%N) && (val j == 0%N) then a else 0).
Definition svd_one : 'M[rat]_(2, 1 + 1) * 'rV[rat]_(1 + 1) * 'M[rat]_(1 + 1, 2) :=
  (1%:M, \row_i (if val i == 0%N then 2%:R else 0), 1%:M).

Lemma svd_one_ok : SVD (one_mode 2%:R) svd_one /\ Leading svd_one /\ NoMore svd_one.
Proof.
split; [|split].
- split; rewrite ?trmx1 ?mulmx1 ?mul1mx //.
  apply/matrixP=> i j; rewrite !mxE.
  by case: i=> [[|[|//]] Hi]; case: j=> [[|[|//]] Hj].
- by move=> i; rewrite [i]ord1 mxE; apply/eqP.
- by move=> i; rewrite [i]ord1 mxE.
Qed.

Lemma one_modeM (A : 'M[rat]_2) : A 1 0 = 0 -> A *m one_mode 2%:R = one_mode (2%:R * A 0 0).
Proof.
move=> H; apply/matrixP=> i j; rewrite !mxE big_ord_recl big_ord1 !mxE /= mulr0 addr0.
case: j=> [[|[|//]] Hj] /=; last by rewrite andbF mulr0.
case: i=> [[|[|//]] Hi] /=; first by rewrite mulrC (_ : Ordinal Hi = 0) //; apply/val_inj.
by rewrite (_ : Ordinal Hi = 1) ?H ?mul0r //; apply/val_inj.
Qed.

Lemma one_mode_matrix (a : rat) : reduced_system_matrix (one_mode (2%:R * a)) svd_one = a%:M.
Proof.
apply/matrixP=> i j; rewrite [i]ord1 [j]ord1 /reduced_system_matrix.
rewrite !mxE !big_ord_recl !big_ord0 !mxE !big_ord_recl !big_ord0 !mxE /=.
by rewrite !(mulr0, mul0r, addr0, mul1r, mulr1) mulrC mulrA mulVf ?mul1r.
Qed.

Lemma one_mode_span (a : rat) : InSpan (one_mode 2%:R) (one_mode (2%:R * a)).
Proof.
exists a%:M; rewrite mul_mx_scalar; apply/matrixP=> i j; rewrite !mxE.
by case: ifP; rewrite ?mulr0 // mulrC.
Qed.

Lemma vec_span : InSpan (one_mode 2%:R) (vec2 1 0).
Proof.
exists (vec2 2%:R^-1 0); apply/matrixP=> i j; rewrite !mxE big_ord_recl big_ord1 !mxE /=.
by case: i=> [[|[|//]] Hi].
Qed.

Lemma one_pair (a : rat) :
  EigenPairs (reduced_system_matrix (one_mode (2%:R * a)) svd_one) 1%:M (const_mx a).
Proof.
apply/eigenpairsE; rewrite one_mode_matrix mulmx1 mul1mx diag_const_mx; by [].
Qed.

(** the hypotheses of the theorems are met: prediction with either kind of modes *)
Example C92_example (mode : reconstruct_mode) steps :
  let A : 'M[rat]_2 := \matrix_(i, j) (if val i == 0%N then 3%:R + (val j)%:R else if val j == 0%N then 0 else 5%:R) in
  reduced_predict (@pinv_lstsq rat_realFieldType) id mode (A *m one_mode 2%:R) svd_one 1%:M (const_mx 3%:R)
    (vec2 1 0) steps
  = [seq trajectory A (vec2 1 0) k | k <- steps].
Proof.
move=> A; have [H1 [H2 H3]] := svd_one_ok.
have EA : A *m one_mode 2%:R = one_mode (2%:R * 3%:R) by rewrite one_modeM !mxE //= addr0.
apply: C92_predicts=> //; rewrite ?EA.
- exact: pinv_lstsq_ok.
- exact: one_mode_span.
- exact: one_pair.
- exact: unitmx1.
- by move=> _ j; rewrite mxE; apply/eqP.
- exact: vec_span.
- by move=> k; apply/matrixP=> i j; rewrite mxE.
Qed.

(** ** C92 (refuted part 1): the default exact modes lose the components of the initial state
    that the system maps to zero.  All hypotheses of [C92_predicts] hold except that an
    eigenvalue is zero; already the state at time zero is wrong. *)
Theorem C92_exact_initial_refuted :
  forall lstsq : lstsq_t rat_realFieldType, solves_consistent lstsq ->
  exists (A X : 'M[rat]_2) (svd : 'M[rat]_(2, 1 + 1) * 'rV[rat]_(1 + 1) * 'M[rat]_(1 + 1, 2))
         (W : 'M[rat]_1) (d : 'rV[rat]_1) (X0 : 'cV[rat]_2),
  [/\ SVD X svd, Leading svd, NoMore svd & InSpan X (A *m X)] /\
  [/\ EigenPairs (reduced_system_matrix (A *m X) svd) W d, W \in unitmx, InSpan X X0 &
      reduced_predict lstsq id Exact (A *m X) svd W d X0 [:: 0%N] <> [:: X0]] /\
  reduced_predict lstsq id Project (A *m X) svd W d X0 [:: 0%N] = [:: X0].
Proof.
move=> lstsq Hl; have [H1 [H2 H3]] := svd_one_ok.
have EA : (0 : 'M[rat]_2) *m one_mode 2%:R = one_mode (2%:R * 0).
  by rewrite mul0mx mulr0; apply/matrixP=> i j; rewrite !mxE; case: ifP.
exists 0, (one_mode 2%:R), svd_one, 1%:M, (const_mx 0), (vec2 1 0).
split; first by split=> //; rewrite EA; exact: one_mode_span.
have HE := one_pair 0; rewrite -EA in HE.
split; last first.
  rewrite (C92_predicts _ Hl H1 H2 H3 _ HE (unitmx1 _ _) _ vec_span) //.
  - by rewrite EA; exact: one_mode_span.
  - by move=> k; apply/matrixP=> i j; rewrite mxE.
split=> //; [exact: unitmx1|exact: vec_span|move=> H].
have [|C HC] := @C92_exact_span _ lstsq _ _ _ _ _ (0 *m one_mode 2%:R) svd_one 1%:M (const_mx 0) (vec2 1 0) [:: 0%N] (vec2 1 0).
  by rewrite H inE.
by move: HC; rewrite !mul0mx=> /(congr1 (fun M : 'cV_2 => M 0 0)); rewrite !mxE.
Qed.
Print Assumptions C92_exact_initial_refuted.

(** ** C92 (refuted part 2): with [sys_mode="matrix"] a model with reduced rank can be fitted, but
    no state of the training data can be predicted. *)
Theorem C92_matrix_mode_refuted :
  forall (F : fieldType) (re : F -> F) n r m mode (K : 'M[F]_r) (X0 : 'M[F]_(n, m)) steps,
  check_reduced n r mode false false = None -> reduced_predict_matrix re K X0 steps = None.
Proof.
move=> F re n r m mode K X0 steps /C92_accepts [/andP[_ H] _ _ _].
by rewrite /reduced_predict_matrix /check_initial_condition eq_sym (ltn_eqF H).
Qed.
Print Assumptions C92_matrix_mode_refuted.

Example C92_accepts_example : check_reduced 3 2 (Some Exact) false false = None.
Proof. by []. Qed.
