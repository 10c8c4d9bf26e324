(** * Lemmas about generator-based DMD. *)

From mathcomp Require Import all_ssreflect all_algebra.
Import Order.Theory GRing.Theory Num.Theory.
From Verif Require Import LinModel LinSpec LinProofs GenModel GenSpec.
Set Implicit Arguments.
Unset Strict Implicit.
Unset Printing Implicit Defensive.
Local Open Scope ring_scope.

Section Affine.
Variables (R : realFieldType) (s n q : nat) (X : 'M[R]_(s, n)) (U : 'M[R]_(s, q)).

(** The coefficients of a control-affine system as one matrix. *)
Definition stack (A : 'M[R]_n) (B : 'I_q -> 'M[R]_n) : 'M[R]_(n, n + q * n) :=
  row_mx A (\matrix_(a < n) mxvec (\matrix_(c, k) B c a k)).

Lemma kron_sum (w : 'rV[R]_(q * n)) i :
  \sum_k w 0 k * cwise_kron U X i k = \sum_c \sum_k U i c * X i k * (vec_mx w : 'M[R]_(q, n)) c k.
Proof.
rewrite (reindex _ (curry_mxvec_bij q n)) /= pair_bigA.
apply: eq_bigr => -[c k] _ /=; rewrite /cwise_kron mxE mxvecE mxE -{1}(vec_mxK w) mxvecE.
by rewrite mulrC.
Qed.

Lemma stack_sum A B i a :
  \sum_k stack A B a k * (row_mx X (cwise_kron U X)) i k
  = \sum_k A a k * X i k + \sum_c U i c * \sum_k B c a k * X i k.
Proof.
rewrite big_split_ord /=; congr (_ + _).
  by apply: eq_bigr => k _; rewrite !row_mxEl.
have -> : \sum_(k < q * n) stack A B a (rshift n k) * row_mx X (cwise_kron U X) i (rshift n k)
  = \sum_k (mxvec (\matrix_(c, k) B c a k) : 'rV[R]_(q * n)) 0 k * cwise_kron U X i k.
  by apply: eq_bigr => k _; rewrite !row_mxEr !mxE.
rewrite kron_sum mxvecK; apply: eq_bigr => c _; rewrite mulr_sumr; apply: eq_bigr => k _.
by rewrite mxE -mulrA [B _ _ _ * _]mulrC.
Qed.

Lemma stack_inj (M : 'M[R]_(n, n + q * n)) :
  M = stack (lsubmx M) (fun c => \matrix_(a, b) (vec_mx (row a (rsubmx M)) : 'M[R]_(q, n)) c b).
Proof.
rewrite -[LHS]hsubmxK /stack; congr row_mx; apply/row_matrixP => a; rewrite rowK -[LHS]vec_mxK.
by congr mxvec; apply/matrixP => c k; rewrite !mxE.
Qed.

Lemma affine_spanning_stack : affine_spanning X U -> spanning (row_mx X (cwise_kron U X)).
Proof.
move=> H v Hv; have [] := H (usubmx v) (vec_mx (dsubmx v)^T) => [i|h1 h2].
  rewrite -[RHS](Hv i) big_split_ord /=; congr (_ + _).
    by apply: eq_bigr => k _; rewrite row_mxEl mxE.
  rewrite -kron_sum; apply: eq_bigr => k _; rewrite row_mxEr mulrC; congr (_ * _).
  by rewrite !mxE.
rewrite -[v]vsubmxK h1 (_ : dsubmx v = 0) ?col_mx0 //.
by apply: trmx_inj; rewrite trmx0 -[LHS]vec_mxK h2 linear0.
Qed.

Lemma affine_error_stack (Xdot : 'M[R]_(s, n)) A B :
  one_step_error (const_mx 1) (row_mx X (cwise_kron U X)) Xdot (stack A B) = affine_error X Xdot U A B.
Proof.
apply: eq_bigr => i _; rewrite mxE mul1r; apply: eq_bigr => a _.
by rewrite stack_sum.
Qed.

Lemma affine_fit (lstsq : lstsq_t R) N (Xdot : 'M[R]_(s, n)) :
  let Z := row_mx X (cwise_kron U X) in let w := const_mx N%:R^-1 in
  stack (koopman_and_control_tensor lstsq N X Xdot U).1 (koopman_and_control_tensor lstsq N X Xdot U).2
  = (lstsq _ _ _ (Z^T *m (diag_mx w *m Z)) (Z^T *m (diag_mx w *m Xdot)))^T.
Proof.
move=> Z w; rewrite /koopman_and_control_tensor /= -stack_inj; congr (_ ^T).
have -> : col_mx X^T (cwise_kron U X)^T = Z^T by rewrite tr_row_mx.
rewrite !linearZ /= !trmx_mul !trmxK diag_const_mx !mul_scalar_mx -!scalemxAr.
by [].
Qed.

End Affine.
