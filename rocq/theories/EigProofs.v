(** * Lemmas for the selection of the eigensolver. *)

From mathcomp Require Import all_ssreflect all_algebra.
From Verif Require Import LinModel KernModel KernSpec KernProofs EigModel EigSpec.
Import GRing.Theory Num.Theory.
Set Implicit Arguments.
Unset Strict Implicit.
Unset Printing Implicit Defensive.
Local Open Scope ring_scope.

Section Proofs.
Variable R : rcfType.

Lemma choice f n k : symmetric_solver (choose f n k) <-> kernel_symmetric f /\ (k = n \/ dist_symmetric f).
Proof.
rewrite /symmetric_solver /choose /is_symmetric.
case: eqP => E; case: (kernel_symmetric f); case: (dist_symmetric f) => /=; split=> //;
  try (by case=> //; auto); try (by move=> [? [|]]); auto.
Qed.

Lemma from_lower_sym n (A : 'M[R]_n) : Symmetric A -> from_lower A = A.
Proof. by move=> H; apply/matrixP => i j; rewrite mxE; case: ifP. Qed.

Lemma from_lower_symmetric n (A : 'M[R]_n) : Symmetric (from_lower A).
Proof.
move=> i j; rewrite !mxE; case: (ltngtP (i : nat) j) => [H|H|H] //.
by have -> : i = j by apply/val_inj; rewrite /= H.
Qed.

Lemma pairs_scale n k (A : 'M[R]_n) e (V : 'M[R]_(n, k)) d :
  EigenPairs A e V -> EigenPairs A e (mat_dot_diagmat V d).
Proof.
rewrite /EigenPairs mat_dot_diagE mulmxA => ->.
by rewrite -!mulmxA diag_mxC.
Qed.

Lemma orthonormal_norm n (V : 'M[R]_n) : V^T *m V = 1%:M -> col_norm V = const_mx 1.
Proof.
move=> H; apply/matrixP => i j; rewrite !mxE.
move/matrixP: H => /(_ j j); rewrite !mxE eqxx mulr1n.
rewrite (eq_bigr (fun i => V i j ^+ 2)) => [->|k _]; first exact: sqrtr1.
by rewrite mxE expr2.
Qed.

Lemma scale_one n (V : 'M[R]_n) : V^T *m V = 1%:M -> mat_dot_diagmat V (reciprocal (col_norm V)) = V.
Proof.
move=> /orthonormal_norm ->; rewrite mat_dot_diagE.
have -> : reciprocal (const_mx 1 : 'rV[R]_n) = const_mx 1 by apply/matrixP => i j; rewrite !mxE invr1.
by rewrite diag_const_mx mulmx1.
Qed.

Lemma eigenpairs_ok (B : backend R) f n (A : 'M[R]_n) k nrm val e V : ScipySolvers B ->
  (is_symmetric f -> Symmetric A) -> (k != n) || dist_symmetric f || ~~ kernel_symmetric f ->
  compute_kernel_eigenpairs B f A k nrm val = Some (e, V) -> EigenPairs A e V.
Proof.
move=> [Hh [Hsh [He Hs]]] HA Hk; rewrite /compute_kernel_eigenpairs.
case: ifP => // _.
case E: (B _ _ _ _) => [[e' V']|] // [<- <-].
suff H : EigenPairs A e' V' by case: nrm => //; exact: pairs_scale.
move: E Hk HA; rewrite /choose /is_symmetric.
case: eqP => [Ekn|_] /=.
- subst k; case: (kernel_symmetric f) => /= E; last by move=> _ _; exact: (He _ _ _ _ _ E).
  case: (dist_symmetric f) => //= _ HA.
  have [H1 _] := Hh _ _ _ _ E; by rewrite from_lower_sym in H1; last exact: HA.
- case D: (_ && _) => E _ HA.
  + by apply: (Hsh _ _ _ _ _ E); exact: HA.
  + exact: (Hs _ _ _ _ _ E).
Qed.

Lemma all_pairs_wrong (B : backend R) f n (A : 'M[R]_n) nrm val e V : ScipySolvers B ->
  kernel_symmetric f -> ~ Symmetric A ->
  compute_kernel_eigenpairs B f A n nrm val = Some (e, V) -> ~ EigenPairs A e V.
Proof.
move=> [Hh _] Hf HA; rewrite /compute_kernel_eigenpairs /choose eqxx Hf.
case: ifP => // _.
case E: (B _ _ _ _) => [[e' V']|] // [Ee EV].
have [H1 H2] := Hh _ _ _ _ E.
have {}EV : V = V' by case: nrm EV => <- //; exact: scale_one.
subst e' V' => H3; apply: HA => i j.
suff -> : A = from_lower A by exact: from_lower_symmetric.
have HV : V \in unitmx by case: (mulmx1_unit H2).
by apply: (can_inj (mulmxK HV)); rewrite H3 H1.
Qed.

(** The pairwise matrix of a stochastic DmapKernelFixed on a non-symmetric distance. *)
Lemma dmap_matrix (c : dmap_cfg R) n (K : 'M[R]_n) : is_stochastic c -> ~~ distance_symmetric c ->
  ~~ alpha_positive c -> normalize_pdist c K = Some (stochastic_kernel K, None, None).
Proof.
move=> H1 H2 H3; rewrite /normalize_pdist H1 /= (negbTE H3) /is_conjugate (negbTE H2) andbF.
by [].
Qed.

End Proofs.
