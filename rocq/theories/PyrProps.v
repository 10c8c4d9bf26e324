(** * C42: Laplacian pyramids. *)

From mathcomp Require Import all_ssreflect all_algebra.
From Verif Require Import KernModel KernSpec PyrModel PyrSpec PyrProofs PyrExample.
Import Order.Theory GRing.Theory Num.Theory.
Set Implicit Arguments.
Unset Strict Implicit.
Unset Printing Implicit Defensive.
Local Open Scope ring_scope.

(** If fit returns (after any number of levels), predict at the training points meets the
    tolerance for every target. *)
Theorem C42_training_residual :
  forall (R : rcfType) n q fuel (c : lp_cfg R) (gauss : R -> 'M[R]_n) (y : 'M[R]_(n, q)) tr,
  auto_adaptive c = false -> (forall e, Symmetric (gauss e)) ->
  lp_fit fuel c gauss y = Some (Some tr) ->
  exists2 y_hat, lp_predict c gauss tr = Some y_hat &
    forall j, Meets (residual_tol c) (tiny_residual c) y y_hat j.
Proof. exact: fit_meets. Qed.
Print Assumptions C42_training_residual.

(** For distinct points fit returns. *)
Theorem C42_terminates :
  forall (R : rcfType) n q (c : lp_cfg R) (gauss : R -> 'M[R]_n) (y : 'M[R]_(n, q)),
  auto_adaptive c = false -> lp_alpha_positive c = false -> KernelFunction gauss ->
  0 < tiny_residual c -> Archimedean R -> Distinct gauss (initial_epsilon c) (mu c) ->
  exists fuel tr, lp_fit fuel c gauss y = Some (Some tr).
Proof. exact: fit_terminates. Qed.
Print Assumptions C42_terminates.

(** A point that occurs twice (equal rows of the kernel matrix) with targets further apart
    than twice the tolerance: fit never returns; without density normalisation it runs
    forever. *)
Theorem C42_duplicates_refuted :
  forall (R : rcfType) n q (c : lp_cfg R) (gauss : R -> 'M[R]_n) (y : 'M[R]_(n, q)) i0 i1 j,
  auto_adaptive c = false -> (forall e, Symmetric (gauss e)) ->
  (forall e k, gauss e i0 k = gauss e i1 k) ->
  (forall t, residual_tol c = Some t -> 2%:R * t < `|y i0 j - y i1 j|) ->
  2%:R * tiny_residual c <= `|y i0 j - y i1 j| ->
  forall fuel, (forall tr, lp_fit fuel c gauss y <> Some (Some tr)) /\
    (lp_alpha_positive c = false -> lp_fit fuel c gauss y = None).
Proof.
move=> R n q c gauss y i0 i1 j Ha HS HG Ht Hy fuel.
have H := dup_fit fuel Ha HS HG Ht Hy; split; first by move=> tr; case: H => ->.
move=> Hal; case: H => // H; exfalso; move: H; rewrite /lp_fit.
have := @no_exception R n q fuel c gauss y (lp_init c y) Ha Hal.
case: (lp_loop _ _ _ _ _) => [[s|]|] // K _; apply: K => //=.
by rewrite size_nseq size_enum_ord.
Qed.
Print Assumptions C42_duplicates_refuted.

(** A case that meets the hypotheses: two points, one target, two levels. *)
Example C42_example : forall R : rcfType, exists (c : lp_cfg R) (gauss : R -> 'M[R]_2) (y : 'M[R]_(2, 1)) tr,
  auto_adaptive c = false /\ (forall e, Symmetric (gauss e)) /\ size tr = 2%N /\
  lp_fit 2 c gauss y = Some (Some tr) /\ lp_fit 1 c gauss y = None.
Proof. exact: pyr_example. Qed.

(** A case that meets the hypotheses of the second theorem. *)
Example C42_example_distinct : forall R : rcfType, Archimedean R ->
  exists (gauss : R -> 'M[R]_2), KernelFunction gauss /\ Distinct gauss 1 2%:R /\ gauss 1 0 1 != 0.
Proof. exact: distinct_example. Qed.

(** A case that meets the hypotheses of the third: one point twice. *)
Example C42_example_duplicates : forall R : rcfType, exists (gauss : R -> 'M[R]_2) (y : 'M[R]_(2, 1)),
  (forall e, Symmetric (gauss e)) /\ (forall e k, gauss e 0 k = gauss e 1 k) /\
  `|y 0 0 - y 1 0| = 1.
Proof.
move=> R; exists (fun _ => const_mx 1), (\matrix_(i, j) (if i == 0 then 1 else 0)); split; [|split].
- by move=> e i j; rewrite !mxE.
- by move=> e k; rewrite !mxE.
- by rewrite !mxE /= subr0 normr1.
Qed.
