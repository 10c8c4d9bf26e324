(** * Theorems about linear systems (C17 - C22, C54). *)

From mathcomp Require Import all_ssreflect fingroup perm all_algebra.
Import Order.Theory GRing.Theory Num.Theory.
From Verif Require Import LinModel LinSpec LinProofs.
Set Implicit Arguments.
Unset Strict Implicit.
Unset Printing Implicit Defensive.
Local Open Scope ring_scope.

(** ** C18: least squares.  For arbitrary data (also with a singular Gram matrix)
    and non-negative sample weights. *)
Theorem C18_least_squares :
  forall (R : realFieldType) (lstsq : lstsq_t R) (s n N : nat) (w : option 'rV[R]_s) (X Y : 'M[R]_(s, n)),
  solves_consistent lstsq -> (forall v, w = Some v -> forall i, 0 <= v 0 i) ->
  forall K : 'M[R]_n,
    one_step_error (weights N w) X Y (full_system_matrix lstsq N w X Y)
    <= one_step_error (weights N w) X Y K.
Proof.
move=> R lstsq s n N w X Y Hl Hw; apply: full_system_minimal=> // i.
by case: w Hw=> [v|] Hw /=; [apply: Hw|rewrite mxE invr_ge0 ler0n].
Qed.
Print Assumptions C18_least_squares.

(** The assumption on the least squares routine is satisfiable over every real
    field. *)
Theorem C18_lstsq_exists :
  forall R : realFieldType, exists lstsq : lstsq_t R, solves_consistent lstsq.
Proof. by move=> R; exists (@pinv_lstsq R); apply: pinv_lstsq_ok. Qed.
Print Assumptions C18_lstsq_exists.

(** ** C17: exact recovery. *)
Theorem C17_recovers_system :
  forall (R : realFieldType) (lstsq : lstsq_t R) (s n N : nat) (w : option 'rV[R]_s)
         (X Y : 'M[R]_(s, n)) (A : 'M[R]_n),
  solves_consistent lstsq -> (0 < N)%N -> (forall v, w = Some v -> forall i, 0 < v 0 i) ->
  spanning X -> (forall i j, Y i j = \sum_k A j k * X i k) ->
  full_system_matrix lstsq N w X Y = A.
Proof.
move=> R lstsq s n N w X Y A Hl HN Hw HX HY; apply: full_system_recovers=> // i.
by case: w Hw=> [v|] Hw /=; [apply: Hw|rewrite mxE invr_gt0 ltr0n].
Qed.
Print Assumptions C17_recovers_system.

Theorem C17_predicts_trajectory :
  forall (R : realFieldType) (lstsq : lstsq_t R) (s n m N : nat) (w : option 'rV[R]_s)
         (X Y : 'M[R]_(s, n)) (A : 'M[R]_n) (X0 : 'M[R]_(n, m)) (steps : seq nat),
  solves_consistent lstsq -> (0 < N)%N -> (forall v, w = Some v -> forall i, 0 < v 0 i) ->
  spanning X -> (forall i j, Y i j = \sum_k A j k * X i k) ->
  predict_matrix id (full_system_matrix lstsq N w X Y) X0 steps
  = [seq trajectory A X0 k | k <- steps].
Proof.
move=> R lstsq s n m N w X Y A X0 steps Hl HN Hw HX HY.
rewrite (@C17_recovers_system _ lstsq _ _ N w X Y A) //; apply: eq_map=> k.
by rewrite mxpow_trajectory; apply/matrixP=> i j; rewrite mxE.
Qed.
Print Assumptions C17_predicts_trajectory.

Definition mx2 (R : ringType) (a b c d : R) : 'M[R]_2 :=
  \matrix_(i, j) (if i == 0 then if j == 0 then a else b else if j == 0 then c else d).

Example C17_example (A : 'M[rat]_2) :
  full_system_matrix (@pinv_lstsq rat_realFieldType) 3 None (mx2 1 1 0 2%:R) (mx2 1 1 0 2%:R *m A^T) = A.
Proof.
apply: C17_recovers_system=> //; first exact: pinv_lstsq_ok.
- move=> v Hv; have H1 := Hv 1; have H0 := Hv 0.
  move: H0 H1; rewrite !big_ord_recl !big_ord0 !mxE /= !addr0 mul0r add0r !mul1r.
  have -> : lift ord0 ord0 = 1 :> 'I_2 by apply/val_inj.
  have -> : ord0 = 0 :> 'I_2 by [].
  move=> H0 /eqP; rewrite mulf_eq0 /= => /eqP H1.
  move: H0; rewrite H1 addr0=> H0.
  apply/matrixP=> i j; rewrite [j]ord1 mxE.
  case: i=> [[|[|//]] Hi].
    by rewrite -[RHS]H0; congr (v _ _); apply/val_inj.
  by rewrite -[RHS]H1; congr (v _ _); apply/val_inj.
- by move=> i j; rewrite mxE; apply: eq_bigr=> k _; rewrite mulrC [A^T _ _]mxE.
Qed.

(** ** C22: systems with control input. *)
Theorem C22_recovers_controlled_system :
  forall (R : realFieldType) (lstsq : lstsq_t R) (s n q N : nat)
         (X Y : 'M[R]_(s, n)) (U : 'M[R]_(s, q)) (A : 'M[R]_n) (B : 'M[R]_(n, q)),
  solves_consistent lstsq -> (0 < N)%N -> spanning (row_mx X U) ->
  (forall i j, Y i j = \sum_k A j k * X i k + \sum_k B j k * U i k) ->
  koopman_and_control lstsq N X Y U = (A, B).
Proof.
move=> R lstsq s n q N X Y U A B Hl HN HX HY.
have E := control_system lstsq N X Y U.
have E2 : row_mx A B = row_mx (koopman_and_control lstsq N X Y U).1 (koopman_and_control lstsq N X Y U).2.
  rewrite E (@lsq_recovers R lstsq s (n + q) n (const_mx N%:R^-1) (row_mx X U) Y (row_mx A B)) ?trmxK //.
    by move=> i; rewrite mxE invr_gt0 ltr0n.
  move=> i j; rewrite HY big_split_ord /=; congr (_ + _); apply: eq_bigr=> k _.
    by rewrite !row_mxEl.
  by rewrite !row_mxEr.
by case/eq_row_mx: E2=> -> ->; case: (koopman_and_control _ _ _ _ _).
Qed.
Print Assumptions C22_recovers_controlled_system.

Theorem C22_least_squares :
  forall (R : realFieldType) (lstsq : lstsq_t R) (s n q N : nat)
         (X Y : 'M[R]_(s, n)) (U : 'M[R]_(s, q)) (A : 'M[R]_n) (B : 'M[R]_(n, q)),
  solves_consistent lstsq ->
  let: (A', B') := koopman_and_control lstsq N X Y U in
  one_step_error (const_mx N%:R^-1) (row_mx X U) Y (row_mx A' B')
  <= one_step_error (const_mx N%:R^-1) (row_mx X U) Y (row_mx A B).
Proof.
move=> R lstsq s n q N X Y U A B Hl.
rewrite [koopman_and_control _ _ _ _ _]surjective_pairing control_system.
by apply: lsq_minimal=> // i; rewrite mxE invr_ge0 ler0n.
Qed.
Print Assumptions C22_least_squares.

Example C22_example (A : 'M[rat]_1) (B : 'M[rat]_1) :
  let XU := mx2 1 1 0 2%:R : 'M[rat]_(2, 1 + 1) in
  koopman_and_control (@pinv_lstsq rat_realFieldType) 3 (lsubmx XU) (lsubmx XU *m A^T + rsubmx XU *m B^T) (rsubmx XU)
  = (A, B).
Proof.
move=> XU; apply: C22_recovers_controlled_system=> //; first exact: pinv_lstsq_ok.
- rewrite hsubmxK => v Hv; have H1 := Hv 1; have H0 := Hv 0.
  move: H0 H1; rewrite !big_ord_recl !big_ord0 !mxE /= !addr0 mul0r add0r !mul1r.
  have -> : lift ord0 ord0 = 1 :> 'I_2 by apply/val_inj.
  have -> : ord0 = 0 :> 'I_2 by [].
  move=> H0 /eqP; rewrite mulf_eq0 /= => /eqP H1.
  move: H0; rewrite H1 addr0=> H0.
  apply/matrixP=> i j; rewrite [j]ord1 mxE.
  case: i=> [[|[|//]] Hi].
    by rewrite -[RHS]H0; congr (v _ _); apply/val_inj.
  by rewrite -[RHS]H1; congr (v _ _); apply/val_inj.
- move=> i j; rewrite mxE; congr (_ + _); rewrite mxE; apply: eq_bigr=> k _; rewrite mulrC.
    by rewrite [A^T _ _]mxE.
  by rewrite [B^T _ _]mxE.
Qed.

(** ** C19: spectral and matrix mode.  [re] is any entrywise function (np.real). *)
Theorem C19_spectral_equals_matrix :
  forall (F : fieldType) (lstsq : lstsq_t F) (re : F -> F) (n m : nat) (A V : 'M[F]_n) (d : 'rV[F]_n)
         (L : option 'M[F]_n) (X0 : 'M[F]_(n, m)) (steps : seq nat),
  solves_consistent lstsq -> V \in unitmx -> A *m V = V *m diag_mx d ->
  (forall L', L = Some L' -> L' *m V = 1%:M) ->
  predict_spectral lstsq re V d L V X0 steps = predict_matrix re A X0 steps /\
  predict_matrix re A X0 steps = [seq map_mx re (trajectory A X0 k) | k <- steps].
Proof.
move=> F lstsq re n m A V d L X0 steps Hl HV HA HL; split; first exact: predict_spectral_matrix.
by apply: eq_map=> k; rewrite mxpow_trajectory.
Qed.
Print Assumptions C19_spectral_equals_matrix.

(** A linear post map (e.g. Koopman modes or a projection onto some features)
    combined with the eigenvectors returns the post map of the trajectory. *)
Theorem C19_post_map :
  forall (F : fieldType) (lstsq : lstsq_t F) (re : F -> F) (n p m : nat) (A V : 'M[F]_n) (d : 'rV[F]_n)
         (L : option 'M[F]_n) (P : 'M[F]_(p, n)) (X0 : 'M[F]_(n, m)) (steps : seq nat),
  solves_consistent lstsq -> V \in unitmx -> A *m V = V *m diag_mx d ->
  (forall L', L = Some L' -> L' *m V = 1%:M) ->
  predict_spectral lstsq re V d L (P *m V) X0 steps
  = [seq map_mx re (P *m trajectory A X0 k) | k <- steps].
Proof. exact: predict_spectral_modes. Qed.
Print Assumptions C19_post_map.

Theorem C19_controlled :
  forall (F : fieldType) (lstsq : lstsq_t F) (re : F -> F) (n q m : nat) (A V L : 'M[F]_n) (d : 'rV[F]_n)
         (B : 'M[F]_(n, q)) (X0 : 'M[F]_(n, m)) (Us : seq 'M[F]_(q, m)),
  A *m V = V *m diag_mx d -> L *m V = 1%:M -> map_mx re X0 = X0 ->
  flowmap_spectral_controlled re V L d B (compute_spectral_system_states lstsq V (Some L) X0) Us
  = flowmap_matrix_controlled re A B X0 Us.
Proof. exact: spectral_controlled. Qed.
Print Assumptions C19_controlled.

(** The controlled flow map is the recursion x_{k+1} = A x_k + B u_k, if taking
    the real part does not change the states. *)
Theorem C19_controlled_trajectory :
  forall (F : fieldType) (re : F -> F) (n q m : nat) (A : 'M[F]_n)
         (B : 'M[F]_(n, q)) (X0 : 'M[F]_(n, m)) (Us : seq 'M[F]_(q, m)),
  let x k := ctrajectory A B X0 (fun j => nth 0 Us j) k in
  (forall k, (k < size Us)%N -> map_mx re (x k.+1) = x k.+1) ->
  flowmap_matrix_controlled re A B X0 Us = [seq x k | k <- iota 0 (size Us).+1].
Proof. move=> F re n q m A B X0 Us x H; exact: controlled_states_traj. Qed.
Print Assumptions C19_controlled_trajectory.

Lemma mx2_mul (R : ringType) (a b c d a' b' c' d' : R) :
  mx2 a b c d *m mx2 a' b' c' d'
  = mx2 (a * a' + b * c') (a * b' + b * d') (c * a' + d * c') (c * b' + d * d').
Proof.
apply/matrixP=> i j; rewrite !mxE !big_ord_recl big_ord0 addr0 !mxE /=.
by case: i=> [[|[|//]] Hi]; case: j=> [[|[|//]] Hj].
Qed.

Lemma mx2_diag (R : ringType) (a b : R) :
  diag_mx (\row_(i < 2) if i == 0 then a else b) = mx2 a 0 0 b.
Proof.
apply/matrixP=> i j; rewrite !mxE.
by case: i=> [[|[|//]] Hi]; case: j=> [[|[|//]] Hj].
Qed.

Lemma mx2_one (R : ringType) : mx2 1 0 0 1 = 1%:M :> 'M[R]_2.
Proof.
by apply/matrixP=> i j; rewrite !mxE; case: i=> [[|[|//]] Hi]; case: j=> [[|[|//]] Hj].
Qed.

Example C19_hypotheses_met :
  let A := mx2 2%:R 1 0 3%:R : 'M[rat]_2 in
  let V := mx2 1 1 0 1 : 'M[rat]_2 in
  let L := mx2 1 (-1) 0 1 : 'M[rat]_2 in
  let d := \row_(i < 2) (if i == 0 then 2%:R else 3%:R) : 'rV[rat]_2 in
  A *m V = V *m diag_mx d /\ L *m V = 1%:M /\ V \in unitmx.
Proof.
move=> A V L d; have ELV : L *m V = 1%:M.
  by rewrite /L /V mx2_mul -mx2_one; congr mx2; rewrite ?mulr0 ?mul0r ?mulr1 ?mul1r ?addr0 ?add0r ?subrr.
split; last by split=> //; case/mulmx1_unit: ELV.
by rewrite /A /V /d mx2_diag !mx2_mul; congr mx2; rewrite ?mulr0 ?mul0r ?mulr1 ?mul1r ?addr0 ?add0r.
Qed.

(** ** C54: predictions compose. *)
Theorem C54_predictions_compose :
  forall (F : fieldType) (re : F -> F) (n m : nat) (A : 'M[F]_n) (X0 : 'M[F]_(n, m)) (j k : nat),
  map_mx re (trajectory A X0 k) = trajectory A X0 k ->
  predict_matrix re A (nth X0 (predict_matrix re A X0 [:: k]) 0) [:: j]
  = predict_matrix re A X0 [:: (j + k)%N].
Proof.
move=> F re n m A X0 j k H; rewrite /predict_matrix /flowmap_matrix /= !mxpow_trajectory H.
by rewrite trajectoryD.
Qed.
Print Assumptions C54_predictions_compose.

(** ** C20: left eigenvectors. *)
Theorem C20_dual_basis :
  forall (F : fieldType) (n : nat) (A V : 'M[F]_n) (d norms : 'rV[F]_n) V' d' L,
  A *m V = V *m diag_mx d -> V \in unitmx -> (forall i, norms 0 i != 0) ->
  compute_spectral_components A V d norms true = Some (V', d', Some L) ->
  A *m V' = V' *m diag_mx d' /\ V' *m diag_mx d' *m L = A /\ L *m V' = 1%:M.
Proof.
move=> F n A V d norms V' d' L HA HV Hn E.
have := spectral_components true HA HV Hn; rewrite E=> -[_ [HA' [_ [_ /(_ L erefl) [HL HR]]]]].
by [].
Qed.
Print Assumptions C20_dual_basis.

(** ... and the computation succeeds exactly if no eigenvalue is zero; for a
    diagonalisable singular matrix numpy.linalg.solve raises. *)
Theorem C20_fails_iff_singular :
  forall (F : fieldType) (n : nat) (A V : 'M[F]_n) (d norms : 'rV[F]_n),
  A *m V = V *m diag_mx d -> V \in unitmx -> (forall i, norms 0 i != 0) ->
  (compute_spectral_components A V d norms true = None <-> A \notin unitmx).
Proof.
move=> F n A V d norms HA HV Hn.
have HU : (A \in unitmx) = [forall i, d 0 i != 0].
  by rewrite -diag_unit (eig_diag HA HV) !unitmx_mul unitmx_inv HV andbT.
have := spectral_components true HA HV Hn.
case E : (compute_spectral_components _ _ _ _ _)=> [[[V' d'] L]|].
- move=> [HV' [HA' [Ed [HL /(_ _ _) H]]]]; split=> //; rewrite HU=> /negP[]; apply/forallP=> i.
  move: E; rewrite /compute_spectral_components /solve mat_dot_diagmatE unitmx_mul diag_unit.
  by case: ifP=> // /andP [_ /forallP Hd] _; apply: Hd.
- move=> [_ [i Hi]]; split=> // _; rewrite HU; apply/forallPn; exists i; rewrite Hi eqxx //.
Qed.
Print Assumptions C20_fails_iff_singular.

Theorem C20_singular_refuted :
  exists (A V : 'M[rat]_2) (d norms : 'rV[rat]_2),
    A *m V = V *m diag_mx d /\ V \in unitmx /\ (forall i, norms 0 i != 0) /\
    compute_spectral_components A V d norms true = None.
Proof.
exists (mx2 1 0 0 0), 1%:M, (\row_(i < 2) (if i == 0 then 1 else 0)), (const_mx 1).
have HA : mx2 1 0 0 0 *m 1%:M = 1%:M *m diag_mx (\row_(i < 2) (if i == 0 then 1 else 0)) :> 'M[rat]_2.
  by rewrite mx2_diag mulmx1 mul1mx.
split=> //; split; first exact: unitmx1.
have Hn : forall i : 'I_2, (const_mx 1 : 'rV[rat]_2) 0 i != 0 by move=> i; rewrite mxE.
split=> //; apply/(C20_fails_iff_singular HA (unitmx1 _ _) Hn).
rewrite -mx2_diag diag_unit; apply/forallPn; exists 1; rewrite mxE //.
Qed.
Print Assumptions C20_singular_refuted.

(** ** C21: sorting Koopman triplets. *)
Theorem C21_sorted_triplets :
  forall (F : fieldType) (lstsq : lstsq_t F) (re : F -> F) (n r p m : nat) (s : 'S_r)
         (modes : 'M[F]_(p, r)) (d : 'rV[F]_r) (V : 'M[F]_(n, r)) (L : 'M[F]_(r, n))
         (X0 : 'M[F]_(n, m)) (steps : seq nat),
  let: (modes', d', V', L') := sort_koopman_triplets s (modes, d, V, Some L) in
  predict_spectral lstsq re V' d' L' modes' X0 steps
  = predict_spectral lstsq re V d (Some L) modes X0 steps.
Proof. move=> *; exact: triplets_predict. Qed.
Print Assumptions C21_sorted_triplets.

Theorem C21_sorted_triplets_without_left :
  forall (F : fieldType) (lstsq : lstsq_t F) (re : F -> F) (n p m : nat) (s : 'S_n)
         (modes : 'M[F]_(p, n)) (d : 'rV[F]_n) (V : 'M[F]_n)
         (X0 : 'M[F]_(n, m)) (steps : seq nat),
  solves_consistent lstsq -> V \in unitmx ->
  let: (modes', d', V', L') := sort_koopman_triplets s (modes, d, V, None) in
  predict_spectral lstsq re V' d' L' modes' X0 steps
  = predict_spectral lstsq re V d None modes X0 steps.
Proof. move=> *; exact: triplets_predict_basis. Qed.
Print Assumptions C21_sorted_triplets_without_left.
