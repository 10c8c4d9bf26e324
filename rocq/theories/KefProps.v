(** * Theorems about Koopman eigenfunctions (C93). *)

From mathcomp Require Import all_ssreflect fingroup perm all_algebra.
From Verif Require Import LinModel LinSpec LinProofs KoopModel KoopSpec KoopProofs RedProofs KefModel KefSpec KefProofs.
Import Order.Theory GRing.Theory Num.Theory.
Set Implicit Arguments.
Unset Strict Implicit.
Unset Printing Implicit Defensive.
Local Open Scope ring_scope.

(** ** C93: Koopman eigenfunctions. *)

(** If the dictionary evolves linearly under the dynamics, every eigenfunction is multiplied by its
    eigenvalue in each step, with and without left eigenvectors. *)
Theorem C93_eigenfunctions :
  forall (F : fieldType) (lstsq : lstsq_t F) (T : Type) s n (f : T -> T) (psi : T -> 'cV[F]_n)
         (A V : 'M[F]_n) d L (xs : 'I_s -> T),
  solves_consistent lstsq -> KoopmanInvariant f psi A -> Fitted A V d L ->
  forall i j,
  koopman_eigenfunction lstsq V L (samples psi (fun i => f (xs i))) i j
  = d 0 j * koopman_eigenfunction lstsq V L (samples psi xs) i j.
Proof.
move=> F lstsq T s n f psi A V d L xs Hl HK HF i j.
by rewrite -/(f \o xs) (samples_step xs HK) (eigenfunction_step Hl _ HF) mxE.
Qed.
Print Assumptions C93_eigenfunctions.

(** The prediction is the sum over the triplets of mode, power of the eigenvalue and
    eigenfunction; if the state is a linear combination of the dictionary, this is the true
    trajectory of the (possibly non-linear) system. *)
Theorem C93_decomposition :
  forall (F : fieldType) (lstsq : lstsq_t F) (re : F -> F) (T : Type) s n p (f : T -> T) (psi : T -> 'cV[F]_n)
         (h : T -> 'cV[F]_p) (A V : 'M[F]_n) (C : 'M[F]_(p, n)) d L (xs : 'I_s -> T) steps,
  solves_consistent lstsq -> KoopmanInvariant f psi A -> Reconstructs psi h C -> Fitted A V d L ->
  let modes := koopman_modes C^T V in
  let xi := koopman_eigenfunction lstsq V L (samples psi xs) in
  (forall t i k, \sum_j modes i j * d 0 j ^+ t * xi k j = h (iter t f (xs k)) i 0) /\
  edmd_predict_modes lstsq re V d L C^T (samples psi xs)^T steps
  = [seq \matrix_(i, k) re (\sum_j modes i j * d 0 j ^+ t * xi k j) | t <- steps].
Proof.
move=> F lstsq re T s n p f psi h A V C d L xs steps Hl HK HC HF modes xi; split; last exact: modes_sum.
move=> t i k.
have HV := HF; case: HV=> HV _ HL.
have := @predict_spectral_modes _ lstsq id _ _ _ A V d L C (samples psi xs)^T [:: t] Hl HV (fittedE HF) HL.
have -> : C *m V = modes by rewrite /modes /koopman_modes trmxK.
rewrite modes_sum -/xi => -[] /(congr1 (fun M : 'M_(p, s) => M i k)); rewrite !mxE => ->.
have -> : trajectory A (samples psi xs)^T t = (samples psi (fun i => iter t f (xs i)))^T.
  apply/matrixP=> a b; rewrite !mxE -(koopman_iter _ _ HK).
  elim: t a {i}=> [|t IH] a /=; first by rewrite !mxE.
  by rewrite !mxE; apply: eq_bigr=> c _; rewrite IH.
by rewrite HC mxE; apply: eq_bigr=> a _; rewrite !mxE.
Qed.
Print Assumptions C93_decomposition.

(** Fitting sorts the triplets: importance does not increase with the position, and the sorted
    triplets are still a spectral decomposition of the same system. *)
Theorem C93_ranked :
  forall (C : numClosedFieldType) (lstsq : lstsq_t C) argsort s n p (A V : 'M[C]_n) d L
         (modes : 'M[C]_(p, n)) (X_ic : 'M[C]_(s, n)),
  solves_consistent lstsq -> Increasing argsort -> Fitted A V d L ->
  let: (modes', d', V', L') := sort_triplets lstsq argsort X_ic (modes, d, V, L) in
  Fitted A V' d' L' /\
  forall i j : 'I_n, (i <= j)%N ->
  Importance modes' (koopman_eigenfunction lstsq V' L' X_ic) j
  <= Importance modes' (koopman_eigenfunction lstsq V' L' X_ic) i.
Proof.
move=> C lstsq argsort s n p A V d L modes X Hl Hs HF; split; first exact: (sort_fitted modes).
exact: (ranked Hl Hs modes X HF).
Qed.
Print Assumptions C93_ranked.

(** The routine assumed for the ranking exists. *)
Theorem C93_argsort_exists :
  forall C : numClosedFieldType, exists argsort : (forall r, ('I_r -> C) -> 'S_r), Increasing argsort.
Proof.
move=> C; pose good r (f : 'I_r -> C) (p : 'S_r) := [forall i : 'I_r, forall j : 'I_r, (i <= j)%N ==> (f (p i) <= f (p j))].
exists (fun r f => odflt 1%g [pick p | good r f p])=> r f Hf i j Hij.
case: pickP=> [p /forallP/(_ i)/forallP/(_ j)/implyP/(_ Hij) //|Hno].
pose t := [tuple f i | i < r].
have : perm_eq (sort <=%O t) t by rewrite perm_sort.
have Hsz : size (sort <=%O t) == r by rewrite size_sort size_tuple.
rewrite -[sort _ _]/(tval (Tuple Hsz)); case/tuple_permP=> p Ep.
have := Hno p; suff -> : good r f p by [].
have Hsorted : sorted <=%O (sort <=%O t).
  apply: (@sort_sorted_in _ (fun x => x \is Num.real)).
    by move=> x y Hx Hy; exact: real_leVge.
  by apply/allP=> x /mapP[k _ ->]; exact: Hf.
have En k : nth 0 (sort <=%O t) (nat_of_ord k) = f (p k).
  rewrite -[sort _ _]/(tval (Tuple Hsz)) Ep -tnth_nth tnth_mktuple tnth_mktuple; by [].
apply/forallP=> a; apply/forallP=> b; apply/implyP=> Hab; rewrite -!En.
apply: (sorted_leq_nth _ _ 0 Hsorted)=> //.
- by move=> x y z; exact: le_trans.
- by rewrite inE (eqP Hsz).
- by rewrite inE (eqP Hsz).
Qed.
Print Assumptions C93_argsort_exists.

(** If a residual filter keeps only some triplets, the eigenfunctions that remain still evolve with
    their eigenvalues when the left eigenvectors are available ... *)
Theorem C93_filtered_left :
  forall (F : fieldType) (lstsq : lstsq_t F) (T : Type) s n r (f : T -> T) (psi : T -> 'cV[F]_n)
         (A V L : 'M[F]_n) d (keep : 'I_r -> 'I_n) (xs : 'I_s -> T),
  KoopmanInvariant f psi A -> Fitted A V d (Some L) ->
  let V' := \matrix_(i, j) V i (keep j) in
  let L' := \matrix_(i, j) L (keep i) j in
  forall i j,
  koopman_eigenfunction lstsq V' (Some L') (samples psi (fun i => f (xs i))) i j
  = d 0 (keep j) * koopman_eigenfunction lstsq V' (Some L') (samples psi xs) i j.
Proof.
move=> F lstsq T s n r f psi A V L d keep xs HK HF V' L' i j.
have HA := fittedE HF; case: HF=> HV _ /(_ _ erefl) HL.
rewrite -/(f \o xs) (samples_step xs HK) (@left_step _ _ _ _ _ _ _ _ (\row_j d 0 (keep j))) ?mxE //.
have E : L *m A = diag_mx d *m L.
  rewrite (eig_diag HA HV) !mulmxA HL mul1mx; congr (_ *m _).
  by rewrite -[invmx V]mul1mx -HL mulmxK.
apply/matrixP=> a b; rewrite mul_diag_mx !mxE.
have := congr1 (fun M : 'M_n => M (keep a) b) E; rewrite mul_diag_mx !mxE => <-.
by apply: eq_bigr=> c _; rewrite !mxE.
Qed.
Print Assumptions C93_filtered_left.

Definition mat2 (F : ringType) (a b c d : F) : 'M[F]_2 :=
  \matrix_(i, j) (if val i == 0%N then if val j == 0%N then a else b else if val j == 0%N then c else d).

Lemma mat2_eq (F : ringType) (M : 'M[F]_2) : M = mat2 (M 0 0) (M 0 1) (M 1 0) (M 1 1).
Proof.
apply/matrixP=> i j; rewrite mxE.
by case: i=> [[|[|//]] Hi]; case: j=> [[|[|//]] Hj] /=; congr (M _ _); apply/val_inj.
Qed.

Lemma mat2M (F : ringType) (a b c d a' b' c' d' : F) :
  mat2 a b c d *m mat2 a' b' c' d'
  = mat2 (a * a' + b * c') (a * b' + b * d') (c * a' + d * c') (c * b' + d * d').
Proof.
apply/matrixP=> i j; rewrite !mxE big_ord_recl big_ord1 !mxE /=.
by case: i=> [[|[|//]] Hi]; case: j=> [[|[|//]] Hj].
Qed.

Lemma mat2_1 (F : ringType) : 1%:M = mat2 1 0 0 1 :> 'M[F]_2.
Proof.
by apply/matrixP=> i j; rewrite !mxE; case: i=> [[|[|//]] Hi]; case: j=> [[|[|//]] Hj].
Qed.

(** a non-normal system over any field with its eigenvectors and their dual basis *)
Lemma fitted_example (F : fieldType) (b : bool) :
  Fitted (mat2 1 1 0 2%:R : 'M[F]_2) (mat2 1 1 0 1) (\row_j (if val j == 0%N then 1 else 2%:R))
    (if b then Some (mat2 1 (-1) 0 1) else None).
Proof.
have E : mat2 1 (-1) 0 1 *m mat2 1 1 0 1 = 1%:M :> 'M[F]_2.
  by rewrite mat2M mat2_1 !(mulr0, mul0r, mulr1, mul1r, addr0, add0r) subrr.
split.
- by have [] := mulmx1_unit E.
- apply/eigenpairsE; rewrite -mat_dot_diagmatE mat2M; apply/matrixP=> i j; rewrite !mxE.
  by case: i=> [[|[|//]] Hi]; case: j=> [[|[|//]] Hj] /=;
     rewrite !(mulr0, mul0r, mulr1, mul1r, addr0, add0r) // -[1 in 1 + _]/(1%:R) -natrD.
- by case: b=> // L' [<-].
Qed.

Example C93_example (F : fieldType) (b : bool) (lstsq : lstsq_t F) (x : 'cV[F]_2) :
  solves_consistent lstsq ->
  let A := mat2 1 1 0 2%:R in
  let L := if b then Some (mat2 1 (-1) 0 1) else None in
  let xi (z : 'cV[F]_2) := koopman_eigenfunction lstsq (mat2 1 1 0 1) L (samples id (fun _ : 'I_1 => z)) 0 1 in
  xi (A *m x) = 2%:R * xi x.
Proof.
move=> Hl A L xi.
have := @C93_eigenfunctions F lstsq 'cV[F]_2 1 2 (fun z => A *m z) id A (mat2 1 1 0 1) _ L (fun _ => x) Hl
  (fun z => erefl) (fitted_example F b) 0 1.
by move=> E; rewrite /xi -/A E; congr (_ * _); rewrite mxE.
Qed.

(** ... but not without them: the least squares solution on the kept right eigenvectors is not an
    eigenfunction if the system is not normal. *)
Theorem C93_filtered_refuted :
  forall lstsq : lstsq_t rat_realFieldType, Projects lstsq ->
  exists (A V : 'M[rat]_2) d (keep : 'I_1 -> 'I_2) (X : 'M[rat]_(1, 2)),
  Fitted A V d None /\
  koopman_eigenfunction lstsq (\matrix_(i, j) V i (keep j)) None (X *m A^T) 0 0
  <> d 0 (keep 0) * koopman_eigenfunction lstsq (\matrix_(i, j) V i (keep j)) None X 0 0.
Proof.
move=> lstsq HP; have HF := fitted_example rat_realFieldType false.
exists (mat2 1 1 0 2%:R), (mat2 1 1 0 1), (\row_j (if val j == 0%N then 1 else 2%:R)), (fun _ => 1),
  (\row_j (if val j == 0%N then 1 else 0)); split=> //.
set V := \matrix_(i, j) _; rewrite /koopman_eigenfunction /= [X in X <> _]mxE [X in _ <> _ * X]mxE.
have H (x : 'cV[rat]_2) : 2%:R * lstsq _ _ _ V x 0 0 = x 0 0 + x 1 0.
  have := congr1 (fun M : 'M[rat]_1 => M 0 0) (HP _ _ _ V x).
  rewrite !mxE !big_ord_recl big_ord0 !mxE !big_ord_recl !big_ord0 !mxE /= !mul1r !addr0.
  have -> : lift ord0 ord0 = 1 :> 'I_2 by apply/val_inj.
  have -> : ord0 = 0 :> 'I_2 by [].
  have -> : ord0 = 0 :> 'I_1 by [].
  set l := lstsq _ _ _ _ _ _ _ => E.
  have -> : 2%:R * l = (l - x 0 0 + (l - x 1 0)) + (x 0 0 + x 1 0).
    by rewrite addrACA -opprD subrK mulr_natl mulr2n.
  by rewrite E add0r.
move=> E.
have H1 := H (\row_j (if val j == 0%N then 1 else 0))^T.
have H2 := H (\row_j (if val j == 0%N then 1 else 0) *m (mat2 1 1 0 2%:R)^T)^T.
rewrite !mxE /= addr0 in H1.
rewrite [in LHS]E mulrCA H1 !mxE !big_ord_recl !big_ord0 !mxE /= in H2.
by move/eqP: H2.
Qed.
Print Assumptions C93_filtered_refuted.

(** Such a least squares routine exists over every real field. *)
Theorem C93_lstsq_exists :
  forall R : realFieldType, exists lstsq : lstsq_t R, Projects lstsq.
Proof.
move=> R; exists (fun m n p V X => pinv_lstsq (V^T *m V) (V^T *m X))=> m n p V X.
have [|Z HZ] := @gram_consistent R m n p (const_mx 1) V X; first by move=> i; rewrite mxE ler01.
rewrite diag_const_mx !mul1mx in HZ.
by rewrite mulmxBr mulmxA (pinv_lstsq_ok HZ) subrr.
Qed.
Print Assumptions C93_lstsq_exists.
