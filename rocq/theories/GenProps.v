(** * Theorems about generator-based DMD (C59). *)

From mathcomp Require Import all_ssreflect all_algebra.
Import Order.Theory GRing.Theory Num.Theory.
From Verif Require Import LinModel LinSpec LinProofs GenModel GenSpec GenProofs.
Set Implicit Arguments.
Unset Strict Implicit.
Unset Printing Implicit Defensive.
Local Open Scope ring_scope.

(** C59: gDMDFull recovers the generator of linear dynamics. *)
Theorem C59_recovers_generator :
  forall (R : realFieldType) (lstsq : lstsq_t R) (s n : nat) (X Xdot : 'M[R]_(s, n)) (L : 'M[R]_n),
  solves_consistent lstsq -> spanning X ->
  (forall i j, Xdot i j = \sum_k L j k * X i k) ->
  koopman_generator lstsq X Xdot = L.
Proof.
move=> R lstsq s n X Xdot L Hl HX HL; rewrite /koopman_generator.
rewrite (@lsq_recovers R lstsq s n n (const_mx 1) X Xdot L) ?trmxK //.
- by move=> i; rewrite mxE ltr01.
- by rewrite diag_const_mx mul1mx.
- by rewrite diag_const_mx mul1mx.
Qed.
Print Assumptions C59_recovers_generator.

(** C59: for arbitrary data it minimises the error of the derivatives. *)
Theorem C59_generator_least_squares :
  forall (R : realFieldType) (lstsq : lstsq_t R) (s n : nat) (X Xdot : 'M[R]_(s, n)) (L : 'M[R]_n),
  solves_consistent lstsq ->
  one_step_error (const_mx 1) X Xdot (koopman_generator lstsq X Xdot)
  <= one_step_error (const_mx 1) X Xdot L.
Proof.
move=> R lstsq s n X Xdot L Hl; apply: lsq_minimal => //.
- by move=> i; rewrite mxE ler01.
- by rewrite diag_const_mx mul1mx.
- by rewrite diag_const_mx mul1mx.
Qed.
Print Assumptions C59_generator_least_squares.


(** C59: gDMDAffine recovers control-affine (bilinear) dynamics, and the prediction integrates
    the true vector field. *)
Theorem C59_recovers_affine_system :
  forall (R : realFieldType) (lstsq : lstsq_t R) (s n q N : nat) (X Xdot : 'M[R]_(s, n)) (U : 'M[R]_(s, q))
         (A : 'M[R]_n) (B : 'I_q -> 'M[R]_n),
  solves_consistent lstsq -> (0 < N)%N -> affine_spanning X U ->
  (forall i a, Xdot i a = \sum_k A a k * X i k + \sum_c U i c * \sum_k B c a k * X i k) ->
  let: (A', T) := koopman_and_control_tensor lstsq N X Xdot U in
  [/\ A' = A, forall c, T c = B c &
      forall (u : 'cV[R]_q) (x : 'cV[R]_n) a,
        affine_system_func A' T u x a 0 = \sum_k A a k * x k 0 + \sum_c u c 0 * \sum_k B c a k * x k 0].
Proof.
move=> R lstsq s n q N X Xdot U A B Hl HN HX HY.
rewrite [koopman_and_control_tensor _ _ _ _ _]surjective_pairing.
have E := affine_fit X U lstsq N Xdot; cbv zeta in E.
rewrite (@lsq_recovers R lstsq s (n + q * n) n (const_mx N%:R^-1) (row_mx X (cwise_kron U X)) Xdot (stack A B)) ?trmxK // in E;
  first last.
- by move=> i a; rewrite HY stack_sum.
- exact: affine_spanning_stack.
- by move=> i; rewrite mxE invr_gt0 ltr0n.
have [E1 E2] := eq_row_mx E.
have E3 c : (koopman_and_control_tensor lstsq N X Xdot U).2 c = B c.
  apply/matrixP => a k; have /rowP /(_ (mxvec_index c k)) := congr1 (row a) E2.
  by rewrite !rowK !mxvecE [in LHS]mxE [in RHS]mxE.
split=> // u x a; rewrite E1 /affine_system_func 2!mxE; congr (_ + _).
rewrite mulmx_suml summxE; apply: eq_bigr => c _.
by rewrite E3 -scalemxAl !mxE.
Qed.
Print Assumptions C59_recovers_affine_system.

(** C59: for arbitrary data it minimises the error of the derivatives over all control-affine
    systems. *)
Theorem C59_affine_least_squares :
  forall (R : realFieldType) (lstsq : lstsq_t R) (s n q N : nat) (X Xdot : 'M[R]_(s, n)) (U : 'M[R]_(s, q))
         (A : 'M[R]_n) (B : 'I_q -> 'M[R]_n),
  solves_consistent lstsq -> (0 < N)%N ->
  let: (A', T) := koopman_and_control_tensor lstsq N X Xdot U in
  affine_error X Xdot U A' T <= affine_error X Xdot U A B.
Proof.
move=> R lstsq s n q N X Xdot U A B Hl HN.
rewrite [koopman_and_control_tensor _ _ _ _ _]surjective_pairing -!affine_error_stack affine_fit.
have H K : one_step_error (const_mx N%:R^-1) (row_mx X (cwise_kron U X)) Xdot K
  = N%:R^-1 * one_step_error (const_mx 1) (row_mx X (cwise_kron U X)) Xdot K.
  by rewrite /one_step_error mulr_sumr; apply: eq_bigr => i _; rewrite !mxE mul1r.
have P : 0 < N%:R^-1 :> R by rewrite invr_gt0 ltr0n.
by rewrite -(ler_pmul2l P) -!H; apply: lsq_minimal => // i; rewrite mxE ltW.
Qed.
Print Assumptions C59_affine_least_squares.

(** The hypotheses are met: one state, one control input, two samples with different control
    input. *)
Example C59_example (a b : rat) :
  let X : 'M[rat]_(2, 1) := const_mx 1 in
  let U : 'M[rat]_(2, 1) := \matrix_(i, j) (i : nat)%:R in
  let Xdot : 'M[rat]_(2, 1) := \matrix_(i, j) (a + (i : nat)%:R * b) in
  let: (A, T) := koopman_and_control_tensor (@pinv_lstsq rat_realFieldType) 2 X Xdot U in
  A = a%:M /\ T 0 = b%:M.
Proof.
move=> X U Xdot.
have := @C59_recovers_affine_system rat_realFieldType (@pinv_lstsq rat_realFieldType) 2 1 1 2 X Xdot U a%:M (fun=> b%:M).
case: (koopman_and_control_tensor _ _ _ _ _) => A T H.
have [] := H; rewrite ?pinv_lstsq_ok //.
- exact: pinv_lstsq_ok.
- move=> v W Hv; have := Hv 1; have := Hv 0; rewrite !big_ord1 !mxE /= (_ : (1 %% 2)%N = 1%N) // !mul0r addr0 !mul1r => v0.
  rewrite v0 add0r => w0; split; apply/matrixP => i j; rewrite [i]ord1 [j]ord1 mxE //.
- by move=> i j; rewrite [j]ord1 !big_ord1 !mxE /= !mulr1n !mulr1.
Qed.
Print Assumptions C59_example.
