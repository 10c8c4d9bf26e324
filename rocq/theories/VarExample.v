(** * Concrete case for C94. *)

From mathcomp Require Import all_ssreflect all_algebra.
From Verif Require Import LinModel KernModel KernSpec KernExample VarModel VarSpec VarProofs.
Import Order.Theory GRing.Theory Num.Theory.
Set Implicit Arguments.
Unset Strict Implicit.
Unset Printing Implicit Defensive.
Local Open Scope ring_scope.

Section Examples.
Variable R : rcfType.

Definition ex_exp (x : R) : R := (1 + x ^+ 2)^-1.
Definition ex_pow (x b : R) : R := if b == 0 then 1 else if b < 0 then x^-1 else x.

Lemma ex_exp_law : ExpLaw ex_exp.
Proof.
split; first by rewrite /ex_exp expr0n /= addr0 invr1.
by move=> x; rewrite /ex_exp invr_gt0 ltr_paddr // ?sqr_ge0 // ltr01.
Qed.

Lemma ex_pow_law : PowLaw ex_pow.
Proof.
split; rewrite /ex_pow.
- by move=> x b Hx; case: ifP => _; rewrite ?ltr01 //; case: ifP => _ //; rewrite invr_gt0.
- move=> x b Hx Hb; case: eqP => [//|/eqP H0]; rewrite lt_neqAle H0 Hb /=.
  by rewrite invf_le1 // (lt_le_trans _ Hx) // ltr01.
- by move=> b; case: ifP => // _; case: ifP => // _; rewrite invr1.
Qed.

Definition ex_dist : 'M[R]_2 := mx2 0 1 1 0.

Lemma ex_dist_ok : Distances ex_dist.
Proof.
split.
- by move=> i j; case: (ord2 i) => ->; case: (ord2 j) => ->; rewrite !mxE.
- by move=> i; case: (ord2 i) => ->; rewrite !mxE.
- by move=> i j; case: (ord2 i) => ->; case: (ord2 j) => -> //; rewrite !mxE /= ltr01.
Qed.

(** The eigenpairs of 2 x 2 symmetric matrices with a constant diagonal. *)
Definition ex_vec : 'M[R]_2 := mx2 1 1 1 (-1).
Definition ex_eig : eig_t R 2 :=
  fun n => match n with
           | 2%N => fun A : 'M[R]_2 => checking_solver (rv2 (A 0 0 + A 0 1) (A 0 0 - A 0 1)) ex_vec A
           | _ => fun _ => None
           end.

Lemma ex_eig_ok : EigenSolver ex_eig.
Proof.
move=> n A e V; case: n A V => [|[|[|n]]] A V // H.
apply: (checking_solver_ok _ H) => j; exists 0.
by case: (ord2 j) => ->; rewrite !mxE /= oner_eq0.
Qed.

Lemma ex_eig_some (A : 'M[R]_2) : A 0 0 = A 1 1 -> A 0 1 = A 1 0 -> ex_eig A <> None.
Proof.
move=> H1 H2; rewrite /ex_eig /checking_solver; case: eqP => // HN; case: HN.
apply/matrixP => i j; rewrite mul_mx_diag mxE sum2.
by case: (ord2 i) => ->; case: (ord2 j) => ->; rewrite !mxE /= -?H1 -?H2 ?mulr1 ?mul1r ?mulrN1 ?mulN1r ?opprB // addrC.
Qed.

Definition ex_cfg : var_cfg R := VarCfg 1 1 1 true (-1) true.

Lemma ex_accepts : accepts ex_cfg.
Proof.
rewrite accepts_iff ?ltr01 //= expr1n subrr sub0r mulrN1 ltr_oppl opprK -(natrD _ 1 2) ltr1n.
by [].
Qed.

Lemma ex_fit : exists f, var_fit ex_exp ex_pow 6%:R ex_cfg ex_eig ex_dist = Some f.
Proof.
rewrite /var_fit (_ : (2%:Z < nn ex_cfg) = false) //.
have H6 : 0 < 6%:R :> R by rewrite ltr0n.
have [r [q [rho [K [Hr Hq Hb [HK HW] ->]]]]] :=
  core ex_exp_law ex_pow_law H6 (c := ex_cfg) (k := 1) ex_dist_ok isT isT ltr01.
rewrite (_ : symmetrize ex_cfg = true) //.
have Hd : 0 <= dim ex_cfg by exact: ler01.
have H01 : (0 < 1)%N by [].
have Hdiag := two_diag ex_exp_law ex_pow_law ex_dist_ok H01 Hd Hr Hq Hb HK HW.
have Hrho i : rho 0 i = 1 by case: (two_rows ex_exp_law ex_pow_law ex_dist_ok H01 Hd Hr Hq Hb HK HW i).
have [L [s [EL [Hs [Hss HL]]]]] := conjugate_l HW.
have HS := conjugate_symmetric EL.
rewrite EL /solve_eigenproblem.
case E: (ex_eig L) => [[e V]|]; first by eexists.
case: (@ex_eig_some L) => //.
rewrite !HL !Hrho; congr (_ - _).
case: HW => HSK _ _.
by rewrite -!mulrA ![s 0 _ * (_ * _)]mulrCA !Hss !Hrho !sum2 Hdiag (HSK 1 0) addrC.
Qed.

End Examples.
