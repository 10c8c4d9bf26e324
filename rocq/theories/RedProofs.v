(** * Proofs about the reduced rank decomposition. *)

From mathcomp Require Import all_ssreflect all_algebra.
From Verif Require Import LinModel LinSpec LinProofs RedModel RedSpec.
Import GRing.Theory.
Set Implicit Arguments.
Unset Strict Implicit.
Unset Printing Implicit Defensive.
Local Open Scope ring_scope.

Section Proofs.
Variable F : fieldType.

Lemma col_mulE m n p (A : 'M[F]_(m, n)) (B : 'M[F]_(n, p)) j : col j (A *m B) = A *m col j B.
Proof. by rewrite !colE mulmxA. Qed.

Lemma eigenpairsE n r (K : 'M[F]_n) (W : 'M[F]_(n, r)) (d : 'rV[F]_r) :
  EigenPairs K W d <-> K *m W = W *m diag_mx d.
Proof.
split=> H.
- apply/matrixP=> i j; rewrite mul_mx_diag.
  have := congr1 (fun M : 'cV_n => M i 0) (H j); rewrite !mxE => E.
  rewrite mulrC -E; apply: eq_bigr=> k _; by rewrite mxE.
- move=> j; apply/matrixP=> i k; rewrite [k]ord1.
  have := congr1 (fun M : 'M_(n, r) => M i j) H; rewrite mul_mx_diag !mxE => E.
  rewrite mulrC -E; apply: eq_bigr=> l _; by rewrite mxE.
Qed.

Lemma diag_reciprocal r (S : 'rV[F]_r) :
  (forall i, S 0 i <> 0) -> diag_mx S *m diag_mx (reciprocal S) = 1%:M.
Proof.
move=> H; rewrite mulmx_diag -diag_const_mx; congr diag_mx.
apply/matrixP=> i j; rewrite !mxE; apply: mulfV; exact/eqP/H.
Qed.

(** the parts of a truncated decomposition *)
Section Parts.
Variables (n s r q : nat) (X Y : 'M[F]_(n, s)).
Variable svd : 'M[F]_(n, r + q) * 'rV[F]_(r + q) * 'M[F]_(r + q, s).
Let U := svd.1.1.
Let S := svd.1.2.
Let Vh := svd.2.
Let U1 := lsubmx U.
Let U2 := rsubmx U.
Let S1 := lsubmx S.
Let S2 := rsubmx S.
Let V1 := lsubmx Vh^T.
Let V2 := rsubmx Vh^T.
Let D := diag_mx S1.
Let E := diag_mx (reciprocal S1).
Hypothesis Hsvd : SVD X svd.
Hypothesis Hlead : Leading svd.

Lemma U_orth : [/\ U1^T *m U1 = 1%:M, U1^T *m U2 = 0 & U2^T *m U1 = 0].
Proof.
move: Hsvd; rewrite /SVD /U1 /U2 /U; case: svd=> [[u s'] v] [_ H _] /=.
have := H; rewrite -{1 2}(hsubmxK u) tr_row_mx mul_col_row scalar_mx_block.
by case/eq_block_mx=> -> -> -> _.
Qed.

Lemma V_orth : [/\ V1^T *m V1 = 1%:M, V1^T *m V2 = 0 & V2^T *m V1 = 0].
Proof.
move: Hsvd; rewrite /SVD /V1 /V2 /Vh; case: svd=> [[u s'] v] [_ _ H] /=.
have := H; rewrite -{1}(trmxK v) -{1 2}(hsubmxK v^T) tr_row_mx mul_col_row scalar_mx_block.
by case/eq_block_mx=> -> -> -> _.
Qed.

Lemma X_parts : X = U1 *m D *m V1^T + U2 *m diag_mx S2 *m V2^T.
Proof.
move: Hsvd; rewrite /SVD /U1 /U2 /D /S1 /S2 /V1 /V2 /U /S /Vh; case: svd=> [[u s'] v] [H _ _] /=.
rewrite {1}H -{1}(hsubmxK u) -{1}(hsubmxK s') diag_mx_row mul_row_block !mulmx0 addr0 add0r.
by rewrite -{1}(trmxK v) -{1}(hsubmxK v^T) tr_row_mx mul_row_col.
Qed.

Lemma DE : D *m E = 1%:M.
Proof.
apply: diag_reciprocal=> i; have := @Hlead i.
by rewrite /S1 /S mxE.
Qed.

Lemma ED : E *m D = 1%:M.
Proof. exact: mulmx1C DE. Qed.

Lemma matrixE : reduced_system_matrix Y svd = U1^T *m Y *m V1 *m E.
Proof.
rewrite /reduced_system_matrix /U1 /V1 /E /S1 /U /S /Vh; case: svd=> [[u s'] v] /=.
by rewrite mat_dot_diagmatE !mulmxA.
Qed.

Lemma exactE W : reduced_modes Exact Y svd W = Y *m V1 *m E *m W.
Proof.
rewrite /reduced_modes /V1 /E /S1 /S /Vh; case: svd=> [[u s'] v] /=.
by rewrite diagmat_dot_matE !mulmxA.
Qed.

Lemma projectE W : reduced_modes Project Y svd W = U1 *m W.
Proof. by rewrite /reduced_modes /U1 /U; case: svd=> [[u s'] v] /=. Qed.

Lemma UX : U1^T *m X = D *m V1^T.
Proof.
have [H1 H2 _] := U_orth.
by rewrite {1}X_parts mulmxDr !mulmxA H1 H2 mul1mx !mul0mx addr0.
Qed.

(** whatever the rank: the regression of the projected data *)
Lemma projected_least_squares :
  let Z := U1^T *m X in
  reduced_system_matrix Y svd *m (Z *m Z^T) = (U1^T *m Y) *m Z^T.
Proof.
rewrite /= UX trmx_mul trmxK tr_diag_mx matrixE.
have [HV _ _] := V_orth.
rewrite -!mulmxA (mulmxA E D) ED mul1mx.
by rewrite (mulmxA V1^T) HV mul1mx.
Qed.

Lemma projected_gram_unit : let Z := U1^T *m X in Z *m Z^T \in unitmx.
Proof.
rewrite /= UX trmx_mul trmxK tr_diag_mx mulmxA -(mulmxA D) ; have [HV _ _] := V_orth.
rewrite HV mulmx1 unitmx_mul andbb.
by have [] := mulmx1_unit DE.
Qed.

Hypothesis Hrank : NoMore svd.

Lemma S2_0 : S2 = 0.
Proof.
apply/matrixP=> i j; rewrite [i]ord1 /S2 !mxE /S.
exact: Hrank.
Qed.

Lemma X_exact : X = U1 *m D *m V1^T.
Proof. by rewrite X_parts S2_0 linear0 mulmx0 mul0mx addr0. Qed.

Lemma U_span : U1 = X *m (V1 *m E).
Proof.
have [HV _ _] := V_orth.
by rewrite X_exact mulmxA -(mulmxA _ V1^T) HV mulmx1 -mulmxA DE mulmx1.
Qed.

Lemma span_proj m (Z : 'M[F]_(n, m)) : InSpan X Z -> U1 *m (U1^T *m Z) = Z.
Proof.
case=> C ->; have [HU _ _] := U_orth.
by rewrite X_exact -!mulmxA (mulmxA U1^T) HU mul1mx.
Qed.

(** the unique regression operator with rows in the span of the snapshots *)
Lemma least_squares_unique (B : 'M[F]_n) :
  LeastSquares X Y B -> MinNorm X B -> B = Y *m V1 *m E *m U1^T.
Proof.
rewrite /LeastSquares=> HB HM.
have EB : B *m U1 *m U1^T = B.
  by have := span_proj HM; move/(congr1 trmx); rewrite !trmx_mul !trmxK.
have [HV _ _] := V_orth; have [HU _ _] := U_orth.
rewrite -EB; congr (_ *m _).
have := congr1 (fun M => M *m U1 *m E *m E) HB.
rewrite X_exact !trmx_mul !trmxK tr_diag_mx.
rewrite -!mulmxA !(mulmxA U1^T U1) HU !mul1mx !(mulmxA V1^T V1) HV !mul1mx.
have H1 : D *m (E *m E) = E by rewrite mulmxA DE mul1mx.
by rewrite H1 DE mulmx1.
Qed.

Lemma least_squares_exists :
  LeastSquares X Y (Y *m V1 *m E *m U1^T) /\ MinNorm X (Y *m V1 *m E *m U1^T).
Proof.
have [HV _ _] := V_orth; have [HU _ _] := U_orth; split.
- have HX : X^T = V1 *m (D *m U1^T) by rewrite {1}X_exact !trmx_mul trmxK tr_diag_mx.
  rewrite /LeastSquares mulmxA -(mulmxA _ U1^T X) UX (mulmxA _ D) -(mulmxA _ E D) ED mulmx1.
  by rewrite HX -!mulmxA (mulmxA V1^T V1) HV mul1mx.
- exists (V1 *m E *m (Y *m V1 *m E)^T).
  by rewrite trmx_mul trmxK mulmxA -U_span.
Qed.

Lemma exact_eigen (B : 'M[F]_n) (W : 'M[F]_r) d :
  LeastSquares X Y B -> MinNorm X B ->
  EigenPairs (reduced_system_matrix Y svd) W d ->
  EigenPairs B (reduced_modes Exact Y svd W) d.
Proof.
move=> HB HM; rewrite !eigenpairsE (least_squares_unique HB HM) exactE matrixE=> HW.
by rewrite -[RHS]mulmxA -HW !mulmxA.
Qed.

(** the coordinates of the exact modes are the eigenvectors times the eigenvalues *)
Lemma exact_coord (W : 'M[F]_r) d :
  EigenPairs (reduced_system_matrix Y svd) W d ->
  U1^T *m reduced_modes Exact Y svd W = W *m diag_mx d.
Proof. by rewrite eigenpairsE exactE matrixE=> <-; rewrite !mulmxA. Qed.

Lemma project_galerkin (B : 'M[F]_n) (W : 'M[F]_r) d :
  LeastSquares X Y B -> MinNorm X B ->
  EigenPairs (reduced_system_matrix Y svd) W d ->
  InSpan X (reduced_modes Project Y svd W) /\
  X^T *m (B *m reduced_modes Project Y svd W - reduced_modes Project Y svd W *m diag_mx d) = 0.
Proof.
move=> HB HM; rewrite eigenpairsE (least_squares_unique HB HM) projectE matrixE=> HW.
have [HU _ _] := U_orth; split.
- by exists (V1 *m E *m W); rewrite mulmxA -U_span.
- rewrite X_exact !trmx_mul !trmxK -!mulmxA mulmxBr (mulmxA U1^T U1 (W *m _)) HU mul1mx.
  rewrite (mulmxA U1^T U1 W) HU mul1mx -HW.
  by rewrite -!mulmxA subrr !mulmx0.
Qed.

(** data of a linear system whose snapshots span an invariant subspace *)
Section Linear.
Variable A : 'M[F]_n.
Hypothesis HY : Y = A *m X.
Hypothesis Hinv : InSpan X Y.

Lemma AU : A *m U1 = U1 *m reduced_system_matrix Y svd.
Proof.
rewrite matrixE -!mulmxA span_proj; last first.
  by case: Hinv=> C ->; exists (C *m (V1 *m E)); rewrite -mulmxA.
by rewrite HY -mulmxA -U_span.
Qed.

Lemma project_exact (W : 'M[F]_r) d :
  EigenPairs (reduced_system_matrix Y svd) W d ->
  EigenPairs A (reduced_modes Project Y svd W) d.
Proof.
by rewrite !eigenpairsE projectE=> HW; rewrite mulmxA AU -!mulmxA HW.
Qed.

Lemma exact_project (W : 'M[F]_r) d :
  EigenPairs (reduced_system_matrix Y svd) W d ->
  reduced_modes Exact Y svd W = reduced_modes Project Y svd W *m diag_mx d.
Proof.
move=> HW; rewrite projectE -mulmxA -(exact_coord HW) span_proj //.
by case: Hinv=> C E1; rewrite exactE E1; exists (C *m V1 *m E *m W); rewrite !mulmxA.
Qed.

Lemma eigen_power p (Phi : 'M[F]_(n, r)) (d : 'rV[F]_r) (c : 'M[F]_(r, p)) k :
  A *m Phi = Phi *m diag_mx d ->
  Phi *m (diag_mx (map_mx (fun x => x ^+ k) d) *m c) = trajectory A (Phi *m c) k.
Proof.
move=> H; elim: k=> [|k IH] /=.
  have -> : map_mx (fun x => x ^+ 0) d = const_mx 1 by apply/matrixP=> i j; rewrite !mxE.
  by rewrite diag_const_mx mul1mx.
rewrite -IH !mulmxA H -!mulmxA; congr (_ *m _); rewrite mulmxA; congr (_ *m _).
rewrite mulmx_diag; congr diag_mx; apply/matrixP=> i j; rewrite !mxE exprS.
by rewrite [i]ord1.
Qed.

Lemma predict_modes (lstsq : lstsq_t F) re m mode (W : 'M[F]_r) d (X0 : 'M[F]_(n, m)) steps :
  solves_consistent lstsq ->
  A *m reduced_modes mode Y svd W = reduced_modes mode Y svd W *m diag_mx d ->
  (exists Z, reduced_modes mode Y svd W *m Z = X0) ->
  reduced_predict lstsq re mode Y svd W d X0 steps = [seq map_mx re (trajectory A X0 k) | k <- steps].
Proof.
move=> Hl HA [Z HZ]; rewrite /reduced_predict /predict_spectral /flowmap_spectral /=.
apply: eq_map=> k; rewrite diagmat_dot_matE eigen_power //; congr (map_mx re (trajectory _ _ _)).
exact: Hl HZ.
Qed.

Lemma project_reaches m (W : 'M[F]_r) (X0 : 'M[F]_(n, m)) :
  W \in unitmx -> InSpan X X0 -> exists Z, reduced_modes Project Y svd W *m Z = X0.
Proof.
move=> HW H0; exists (invmx W *m (U1^T *m X0)).
by rewrite projectE -mulmxA (mulmxA W) mulmxV // mul1mx span_proj.
Qed.

Lemma exact_reaches m (W : 'M[F]_r) d (X0 : 'M[F]_(n, m)) :
  EigenPairs (reduced_system_matrix Y svd) W d ->
  W \in unitmx -> (forall j, d 0 j <> 0) -> InSpan X X0 -> exists Z, reduced_modes Exact Y svd W *m Z = X0.
Proof.
move=> HE HW Hd H0; have [Z HZ] := project_reaches HW H0.
exists (diag_mx (reciprocal d) *m Z).
by rewrite (exact_project HE) -mulmxA (mulmxA (diag_mx d)) diag_reciprocal // mul1mx.
Qed.

Lemma project_predicts (lstsq : lstsq_t F) re m (W : 'M[F]_r) d (X0 : 'M[F]_(n, m)) steps :
  solves_consistent lstsq -> EigenPairs (reduced_system_matrix Y svd) W d -> W \in unitmx ->
  InSpan X X0 ->
  reduced_predict lstsq re Project Y svd W d X0 steps = [seq map_mx re (trajectory A X0 k) | k <- steps].
Proof.
move=> Hl HE HW H0; apply: predict_modes=> //; last exact: project_reaches.
by apply/eigenpairsE; apply: project_exact.
Qed.

Lemma exact_predicts (lstsq : lstsq_t F) re m (W : 'M[F]_r) d (X0 : 'M[F]_(n, m)) steps :
  solves_consistent lstsq -> EigenPairs (reduced_system_matrix Y svd) W d -> W \in unitmx ->
  (forall j, d 0 j <> 0) -> InSpan X X0 ->
  reduced_predict lstsq re Exact Y svd W d X0 steps = [seq map_mx re (trajectory A X0 k) | k <- steps].
Proof.
move=> Hl HE HW Hd H0; apply: predict_modes=> //; last exact: exact_reaches HE HW Hd H0.
rewrite (exact_project HE) mulmxA; congr (_ *m _); apply/eigenpairsE; exact: project_exact.
Qed.

End Linear.
End Parts.

(** every state predicted with exact modes is a combination of the second snapshots *)
Lemma exact_in_span (lstsq : lstsq_t F) n s r q m (Y : 'M[F]_(n, s))
    (svd : 'M[F]_(n, r + q) * 'rV[F]_(r + q) * 'M[F]_(r + q, s)) (W : 'M[F]_r) d (X0 : 'M[F]_(n, m)) steps P :
  P \in reduced_predict lstsq id Exact Y svd W d X0 steps -> InSpan Y P.
Proof.
case/mapP=> k _ ->; rewrite exactE.
set b := diagmat_dot_mat _ _.
exists (lsubmx svd.2^T *m diag_mx (reciprocal (lsubmx svd.1.2)) *m W *m b).
by apply/matrixP=> i j; rewrite [LHS]mxE !mulmxA.
Qed.

End Proofs.
