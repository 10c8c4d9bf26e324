(** * Concrete cases for C42. *)

From mathcomp Require Import all_ssreflect all_algebra.
From Verif Require Import RingTac FieldTac KernModel KernSpec KernProofs KernExample PyrModel PyrSpec PyrProofs.
Import Order.Theory GRing.Theory Num.Theory.
Set Implicit Arguments.
Unset Strict Implicit.
Unset Printing Implicit Defensive.
Local Open Scope ring_scope.

Section Examples.
Variable R : rcfType.
Add Field RField : (ft_theory R).

(** Weights 1 and e/(1+e): at scale 1 the mutual weight is 1/2, below it vanishes linearly. *)
Definition ex_gauss (e : R) : 'M[R]_2 :=
  \matrix_(i, j) (if i == j then 1 else `|e|).

Lemma ex_kernel : KernelFunction ex_gauss.
Proof.
move=> e i j; rewrite !mxE eq_sym eqxx; do !split=> //.
by case: ifP; rewrite ?ler01 ?normr_ge0.
Qed.

Lemma distinct_example : Archimedean R ->
  exists (gauss : R -> 'M[R]_2), KernelFunction gauss /\ Distinct gauss 1 2%:R /\ gauss 1 0 1 != 0.
Proof.
move=> HA; exists ex_gauss; split; first exact: ex_kernel.
split; last by rewrite mxE /= normr1 oner_neq0.
move=> d d0; have [N HN] := HA d^-1; exists N => k i j Hk Hij.
rewrite mxE (negbTE Hij) mul1r.
have p0 : 0 < 2%:R ^+ k :> R by rewrite exprn_gt0 // ltr0n.
rewrite ger0_norm ?invr_ge0 ?(ltW p0) //.
rewrite -[d]invrK lef_pinv ?posrE ?invr_gt0 //.
apply: le_trans HN _; rewrite -natrX ler_nat; apply: leq_trans Hk _; exact: ltnW (ltn_expl _ _).
Qed.

(** Identity kernel at scale 1/2, all-ones at scale 1; target (1, 0), tolerance 0. *)
Definition two_gauss (e : R) : 'M[R]_2 := \matrix_(i, j) (if i == j then 1 else if e == 1 then 1 else 0).
Definition ex_cfg : lp_cfg R := LpCfg 1 2%:R (Some 0) false false id (1 / 2%:R).
Definition ex_y : 'M[R]_(2, 1) := \matrix_(i, j) (if i == 0 then 1 else 0).

Lemma tracker_size n q (c : lp_cfg R) gauss (y : 'M[R]_(n, q)) s s' : auto_adaptive c = false ->
  lp_alpha_positive c = false -> Inv c gauss y s -> active s <> [::] -> lp_step c gauss y s = Some s' ->
  size (tracker s') = (size (tracker s)).+1.
Proof.
move=> Ha Hal [I1 _ _ _ _] Hne.
rewrite (@step_shape _ _ _ _ _ y _ _ _ Ha I1 (prepare_alpha0 _ Hal Ha)) => -[<-] /=.
by case: (active s) Hne => // a l _; rewrite size_rcons.
Qed.

Lemma pyr_example : exists (c : lp_cfg R) (gauss : R -> 'M[R]_2) (y : 'M[R]_(2, 1)) tr,
  auto_adaptive c = false /\ (forall e, Symmetric (gauss e)) /\ size tr = 2%N /\
  lp_fit 2 c gauss y = Some (Some tr) /\ lp_fit 1 c gauss y = None.
Proof.
exists ex_cfg, two_gauss, ex_y.
have HS e : Symmetric (two_gauss e) by move=> i j; rewrite !mxE eq_sym.
have Ha : auto_adaptive ex_cfg = false by [].
have Hal : lp_alpha_positive ex_cfg = false by [].
have I0 := Inv_init ex_cfg two_gauss ex_y.
have Hs0 : size (residual_norm (lp_init ex_cfg ex_y)) = size (active (lp_init ex_cfg ex_y)).
  by case: I0.
have Hne0 : active (lp_init ex_cfg ex_y) <> [::].
  by move=> /= H; have := size_enum_ord 1; rewrite H.
have A0 : At ex_cfg two_gauss ex_y 0 (lp_init ex_cfg ex_y).
  by split=> // _ /=; rewrite expr0 divr1.
have HKF : KernelFunction two_gauss.
  move=> e i j; rewrite !mxE eq_sym eqxx; do !split=> //.
  by case: ifP; rewrite ?ler01 //; case: ifP; rewrite ?ler01.
have [s1 [E1 A1 _ F1 N1]] := At_step Ha Hal HKF A0 Hne0.
have T0 : nth 0 (target_values (lp_init ex_cfg ex_y)) (index 0 (active (lp_init ex_cfg ex_y))) = col 0 ex_y.
  by rewrite /= nth_map_index // mem_enum.
have H0 : (0 : 'I_1) \in active (lp_init ex_cfg ex_y) by rewrite /= mem_enum.
have M0 : stochastic_kernel (two_gauss 1) = const_mx (1 / 2%:R).
  have HP : PositiveRows (two_gauss 1).
    by move=> i; rewrite sum2 !mxE eqxx; case: (ord2 i) => ->; rewrite /= addr_gt0 ?ltr01.
  apply/matrixP => i j; rewrite (stochastic_markov HP) sum2 !mxE eqxx.
  by case: (ord2 i) => ->; case: (ord2 j) => -> /=; rewrite -(natrD _ 1 1).
have half1 : (1 / 2%:R == 1 :> R) = false.
  by apply/negbTE; rewrite mul1r lt_eqF // invf_lt1 ?ltr0n // ltr1n.
have M1 : stochastic_kernel (two_gauss (1 / 2%:R)) = 1%:M.
  have HP : PositiveRows (two_gauss (1 / 2%:R)).
    by move=> i; rewrite sum2 !mxE half1; case: (ord2 i) => ->; rewrite /= ?addr0 ?add0r ltr01.
  apply/matrixP => i j; rewrite (stochastic_markov HP) sum2 !mxE half1.
  by case: (ord2 i) => ->; case: (ord2 j) => -> /=; rewrite ?addr0 ?add0r divr1.
have R1 := F1 0 H0; rewrite T0 expr0 divr1 M0 /= in R1.
have e0 : (col 0 ex_y - col 0 (func_approx s1)) 0 0 = 1 / 2%:R.
  rewrite R1 [LHS]mxE [X in _ + X]mxE [(_ *m _) _ _]mxE sum2 !mxE /=.
  by mfield R.
have K1 : ~~ okn ex_cfg (norm2 (col 0 ex_y - col 0 (func_approx s1))).
  have B : 1 / 2%:R <= norm2 (col 0 ex_y - col 0 (func_approx s1)).
    by apply: le_trans (entry_le_norm2 _ 0); rewrite e0 ler_norm.
  rewrite /okn /= negb_or -ltNge -leNgt B andbT.
  by apply: lt_le_trans B; rewrite divr_gt0 ?ltr01 ?ltr0n.
have H1 : (0 : 'I_1) \in active s1.
  by apply: contraR K1 => H; case: (proj1 A1) => _ _ _ I4 _; apply: I4.
have Hne1 : active s1 <> [::] by move=> H; move: H1; rewrite H.
have [s2 [E2 A2 _ F2 N2]] := At_step Ha Hal HKF A1 Hne1.
have R2 := F2 0 H1; rewrite /= expr1 M1 mul1mx subrr in R2.
have Z2 : active s2 = [::].
  case E: (active s2) => [|a l] //; exfalso; have Ha2 : a \in active s2 by rewrite E inE eqxx.
  have := N2 a Ha2; rewrite (ord1 a) R2 /okn /= negb_or => /andP[/negP []].
  by rewrite /norm2 big1 ?sqrtr0 // => i _; rewrite mxE expr0n.
exists (tracker s2); do !split=> //.
- by rewrite (tracker_size Ha Hal (proj1 A1) Hne1 E2) (tracker_size Ha Hal I0 Hne0 E1).
- rewrite /lp_fit (loop_step 1%N I0 Hne0 E1) (loop_step 0%N (proj1 A1) Hne1 E2).
  by rewrite (stop_no_active (proj1 A2) Z2 0%N).
- rewrite /lp_fit (loop_step 0%N I0 Hne0 E1) /=.
  have -> // : [exists j, is_no (conditions s1 j)].
  by apply/existsP; exists 0; case: (proj1 A1) => _ -> _ _ _.
Qed.

End Examples.
