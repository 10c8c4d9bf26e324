(** * Proofs for C93. *)

From mathcomp Require Import all_ssreflect fingroup perm all_algebra.
From Verif Require Import LinModel LinSpec LinProofs KoopModel KoopSpec KoopProofs RedProofs KefModel KefSpec.
Import Order.Theory GRing.Theory Num.Theory.
Set Implicit Arguments.
Unset Strict Implicit.
Unset Printing Implicit Defensive.
Local Open Scope ring_scope.

Section Field.
Variable F : fieldType.
Variable lstsq : lstsq_t F.
Hypothesis Hl : solves_consistent lstsq.

Lemma fittedE n (A V : 'M[F]_n) d L : Fitted A V d L -> A *m V = V *m diag_mx d.
Proof. by case=> _ H _; apply/eigenpairsE. Qed.

Lemma eigenfunctionE s n (A V : 'M[F]_n) d L (X : 'M[F]_(s, n)) :
  Fitted A V d L -> koopman_eigenfunction lstsq V L X = X *m (invmx V)^T.
Proof.
case=> HV _ HL; rewrite /koopman_eigenfunction spectral_states //.
by rewrite trmx_mul trmxK.
Qed.

Lemma eigenfunction_step s n (A V : 'M[F]_n) d L (X : 'M[F]_(s, n)) :
  Fitted A V d L ->
  koopman_eigenfunction lstsq V L (X *m A^T) = mat_dot_diagmat (koopman_eigenfunction lstsq V L X) d.
Proof.
move=> H; rewrite !(eigenfunctionE _ H) mat_dot_diagmatE -!mulmxA; congr (_ *m _).
have HA := fittedE H; case: H=> HV _ _.
rewrite -[diag_mx d]tr_diag_mx -!trmx_mul; congr (_^T).
by rewrite (eig_diag HA HV) !mulmxA mulVmx // mul1mx.
Qed.

Lemma samples_step (T : Type) s n (f : T -> T) (psi : T -> 'cV[F]_n) (K : 'M[F]_n) (x : 'I_s -> T) :
  KoopmanInvariant f psi K -> samples psi (f \o x) = samples psi x *m K^T.
Proof.
move=> H; apply/matrixP=> i j; rewrite !mxE /= H mxE; apply: eq_bigr=> k _.
by rewrite !mxE mulrC.
Qed.

(** left eigenvectors that survive a filter *)
Lemma left_step s n r (A : 'M[F]_n) (V : 'M[F]_(n, r)) (L : 'M[F]_(r, n)) d (X : 'M[F]_(s, n)) :
  L *m A = diag_mx d *m L ->
  koopman_eigenfunction lstsq V (Some L) (X *m A^T)
  = mat_dot_diagmat (koopman_eigenfunction lstsq V (Some L) X) d.
Proof.
move=> H; rewrite /koopman_eigenfunction /= mat_dot_diagmatE [(X *m A^T)^T]trmx_mul trmxK mulmxA H.
by rewrite -mulmxA [LHS]trmx_mul tr_diag_mx.
Qed.

Lemma modes_sum (re : F -> F) s n r p (V : 'M[F]_(n, r)) (d : 'rV[F]_r) (L : option 'M[F]_(r, n)) (modes : 'M[F]_(p, r))
    (X : 'M[F]_(s, n)) steps :
  predict_spectral lstsq re V d L modes X^T steps
  = [seq \matrix_(i, k) re (\sum_j modes i j * d 0 j ^+ t * koopman_eigenfunction lstsq V L X k j) | t <- steps].
Proof.
apply: eq_map=> t; apply/matrixP=> i k; rewrite !mxE; congr (re _); apply: eq_bigr=> j _.
by rewrite !mxE -mulrA; congr (_ * _); rewrite mulrC.
Qed.

Lemma sort_fitted n p (A V : 'M[F]_n) d L (modes : 'M[F]_(p, n)) (s : 'S_n) :
  Fitted A V d L ->
  let: (modes', d', V', L') := sort_koopman_triplets s (modes, d, V, L) in
  Fitted A V' d' L'.
Proof.
case=> HV HA HL; split.
- by rewrite col_permE unitmx_mul HV unitmx_perm.
- move=> j; have -> : col j (col_perm s V) = col (s j) V by apply/matrixP=> i k; rewrite !mxE.
  by rewrite HA mxE.
- case: L HL=> // L HL L' [<-]; apply/matrixP=> i j.
  have := congr1 (fun M : 'M_n => M (s i) (s j)) (HL L erefl).
  rewrite !mxE (inj_eq (@perm_inj _ s))=> <-; by apply: eq_bigr=> l _; rewrite !mxE.
Qed.

Lemma sort_eigenfunction n p m (A V : 'M[F]_n) d L (modes : 'M[F]_(p, n)) (s : 'S_n) (X : 'M[F]_(m, n)) :
  Fitted A V d L ->
  koopman_eigenfunction lstsq (col_perm s V) (omap (row_perm s) L) X
  = col_perm s (koopman_eigenfunction lstsq V L X).
Proof.
move=> H; have H' := @sort_fitted _ p _ _ _ _ modes s H; rewrite /= in H'.
rewrite (eigenfunctionE _ H) (eigenfunctionE _ H').
case: H=> HV _ _; case: H'=> HV' _ _.
have -> : invmx (col_perm s V) = row_perm s (invmx V).
  apply: (can_inj (mulmxK HV')); rewrite mulVmx //.
  apply/matrixP=> i j; rewrite !mxE.
  have := congr1 (fun M : 'M_n => M (s i) (s j)) (mulVmx HV); rewrite !mxE (inj_eq (@perm_inj _ s))=> <-.
  by apply: eq_bigr=> l _; rewrite !mxE.
by apply/matrixP=> i j; rewrite !mxE; apply: eq_bigr=> l _; rewrite !mxE.
Qed.

End Field.

Section Ranked.
Variable C : numClosedFieldType.
Variable lstsq : lstsq_t C.
Variable argsort : forall r, ('I_r -> C) -> 'S_r.
Hypothesis Hl : solves_consistent lstsq.
Hypothesis Hs : Increasing argsort.

Lemma factor_ge0 p r (modes : 'M[C]_(p, r)) j : 0 <= factor modes j.
Proof. by rewrite /factor sqrtC_ge0; apply: sumr_ge0=> i _; rewrite exprn_ge0. Qed.

Lemma importanceE m n r p (V : 'M[C]_(n, r)) L (modes : 'M[C]_(p, r)) (X : 'M[C]_(m, n)) j :
  triplet_importance modes (compute_spectral_system_states lstsq V L X^T) j
  = Importance modes (koopman_eigenfunction lstsq V L X) j.
Proof.
rewrite /triplet_importance /Importance -/(factor modes j) mulr_suml mulr_sumr.
by apply: eq_bigr=> k _; rewrite normrM (ger0_norm (factor_ge0 _ _)) !mxE mulrA.
Qed.

Lemma importance_real m r p (modes : 'M[C]_(p, r)) (xi : 'M[C]_(m, r)) j : Importance modes xi j \is Num.real.
Proof.
apply: ger0_real; apply: mulr_ge0; first exact: factor_ge0.
by apply: sumr_ge0=> k _; apply: mulr_ge0; rewrite ?invr_ge0 ?ler0n.
Qed.

Lemma ranked m n p (A V : 'M[C]_n) d L (modes : 'M[C]_(p, n)) (X : 'M[C]_(m, n)) :
  Fitted A V d L ->
  let: (modes', d', V', L') := sort_triplets lstsq argsort X (modes, d, V, L) in
  forall i j : 'I_n, (i <= j)%N ->
  Importance modes' (koopman_eigenfunction lstsq V' L' X) j
  <= Importance modes' (koopman_eigenfunction lstsq V' L' X) i.
Proof.
move=> H /= i j Hij; set ic := compute_spectral_system_states _ _ _ _.
set s := reversed _; rewrite (sort_eigenfunction Hl modes s X H).
have E k : Importance (col_perm s modes) (col_perm s (koopman_eigenfunction lstsq V L X)) k
           = triplet_importance modes ic (s k).
  rewrite importanceE /Importance; congr (sqrtC _ * _); apply: eq_bigr=> l _; by rewrite !mxE.
rewrite !E /s /reversed !permE /=; apply: Hs.
- by move=> k; rewrite importanceE importance_real.
- by rewrite leq_sub2l.
Qed.

End Ranked.
