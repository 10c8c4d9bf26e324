(** * Example data for C101. *)

From mathcomp Require Import all_ssreflect all_algebra.
From Verif Require Import RingTac LinModel LinSpec ResModel ResSpec ResProofs PsModel PsSpec PsHerm PsProofs.
Import Order.Theory GRing.Theory Num.Theory.
Set Implicit Arguments.
Unset Strict Implicit.
Unset Printing Implicit Defensive.
Local Open Scope ring_scope.

Section Ring.
Variable R : comRingType.
Add Ring RRing : (rt_theory R).
Lemma ring_ab (x y a b : R) : x * a - x * b = (x + y) * a + y * b - (y * a + (x + y) * b).
Proof. mring R. Qed.
End Ring.

Section Ex.
Variable C : numClosedFieldType.

Definition o1 : 'I_3 := Ordinal (isT : 1 < 3)%N.
Definition o2 : 'I_3 := Ordinal (isT : 2 < 3)%N.

Lemma sum3 (f : 'I_3 -> C) : \sum_i f i = f 0 + f o1 + f o2.
Proof.
rewrite !big_ord_recl big_ord0 addr0 addrA.
by congr (_ + f _ + f _); apply/val_inj.
Qed.

Lemma ord3 (P : 'I_3 -> Prop) : P 0 -> P o1 -> P o2 -> forall i, P i.
Proof.
by move=> H0 H1 H2 [[|[|[|//]]] Hi];
  [have -> : Ordinal Hi = 0 by apply/val_inj
  |have -> : Ordinal Hi = o1 by apply/val_inj
  |have -> : Ordinal Hi = o2 by apply/val_inj].
Qed.

Definition mx3 (l : seq (seq C)) : 'M[C]_3 := \matrix_(i, j) (nth [::] l i)`_j.
Definition cv3 (l : seq C) : 'cV[C]_3 := \col_i l`_i.
Definition rv3 (l : seq C) : 'rV[C]_3 := \row_i l`_i.

(** Three snapshots (1,0,0), (0,2,0), (0,0,1) and their images. *)
Definition ex_X : 'M[C]_3 := mx3 [:: [:: 1; 0; 0]; [:: 0; 2%:R; 0]; [:: 0; 0; 1]].
Definition ex_Y : 'M[C]_3 := mx3 [:: [:: 1; - 2%:R; 0]; [:: 2%:R; 4%:R; 0]; [:: 0; 0; 3%:R]].
Definition ex_S : 'M[C]_3 := mx3 [:: [:: 1; 0; 0]; [:: 0; 2%:R^-1; 0]; [:: 0; 0; 1]].
Definition ex_M : 'M[C]_3 := mx3 [:: [:: 1; - 1; 0]; [:: 2%:R; 2%:R; 0]; [:: 0; 0; 3%:R]].
Definition ex_v : 'cV[C]_3 := cv3 [:: 1; - 1; 0].

Definition ex_eigh (M : 'M[C]_3) : 'rV[C]_3 * 'M[C]_3 := (rv3 [:: 1; 4%:R; 1], 1%:M).
Definition ex_eigs (M : 'M[C]_3) : option (seq (C * 'cV[C]_3)) := Some [:: (2%:R, ex_v)].

Let G := full_gram 1 None ex_X ex_X.
Let Gd := full_gram 1 None ex_X ex_Y.
Let R := full_gram 1 None ex_Y ex_Y.

Lemma gram1 (A B : 'M[C]_3) : full_gram 1 None A B = A^T *m B.
Proof. by rewrite /full_gram invr1 scale1r. Qed.

Lemma ex_G : G = diag_mx (rv3 [:: 1; 4%:R; 1]).
Proof.
rewrite /G gram1; apply/matrixP => i j; rewrite mxE sum3 !mxE.
move: i j; apply: ord3; apply: ord3; rewrite /= ?eqxx ?mulr0n ?mulr1n;
  rewrite ?(mulr0, mul0r, mulr1, mul1r, addr0, add0r) // -natrM //.
Qed.

Lemma ex_adapt : g_adapt G 0 = G.
Proof. by rewrite /g_adapt mulr0 (_ : 0%:M = 0) ?addr0 //; apply/matrixP => i j; rewrite !mxE mul0rn. Qed.

Lemma real_nat (k : nat) : (k%:R : C) \is Num.real.
Proof. exact: realn. Qed.

Lemma ex_X_real : RealData ex_X.
Proof. by apply: ord3; apply: ord3; rewrite mxE /= ?rpred0 ?rpred1 ?real_nat. Qed.
Lemma ex_Y_real : RealData ex_Y.
Proof. by apply: ord3; apply: ord3; rewrite mxE /= ?rpredN ?rpred0 ?rpred1 ?real_nat. Qed.

Lemma ex_eigh_ok : EighOf (g_adapt G 0) (ex_eigh (g_adapt G 0)).
Proof.
rewrite ex_adapt; split; last split; last split.
- by move=> i; rewrite [i]ord1; apply: ord3; rewrite mxE /= ?rpred1 ?real_nat.
- by move=> i j; rewrite mxE; case: (_ == _); rewrite ?rpred0 ?rpred1.
- by rewrite /= trmx1 mulmx1.
- by rewrite /= trmx1 mulmx1 mul1mx ex_G.
Qed.

Lemma ex_sq : sq_matrix ex_eigh G 0 = ex_S.
Proof.
rewrite /sq_matrix /ex_eigh trmx1 mulmx1 mul1mx; apply/matrixP => i j; rewrite !mxE.
have E1 : inv_root (1 : C) = 1 by rewrite /inv_root oner_eq0 normr1 divr1 sqrtC1.
have E4 : inv_root (4%:R : C) = 2%:R^-1.
  rewrite /inv_root pnatr_eq0 /= normr_nat div1r (_ : 4%:R = 2%:R ^+ 2 :> C); last by rewrite -natrX.
  by rewrite -exprVn sqrCK // invr_ge0 ler0n.
by move: i j; apply: ord3; apply: ord3; rewrite /= ?E1 ?E4 ?eqxx ?mulr0n ?mulr1n.
Qed.

Lemma ex_num : numerator G Gd R 0 = R.
Proof. by rewrite /numerator conjC0 normr0 expr0n /= !scale0r !subr0 addr0. Qed.

Lemma ex_YS : ex_Y *m ex_S = ex_M.
Proof.
apply/matrixP => i j; rewrite mxE sum3 !mxE; move: i j; apply: ord3; apply: ord3;
  rewrite /= ?(mulr0, mul0r, mulr1, mul1r, addr0, add0r) //.
  by rewrite mulNr mulfV // pnatr_eq0.
by rewrite (_ : 4%:R = 2%:R * 2%:R :> C) ?mulfK ?pnatr_eq0 // -natrM.
Qed.

Lemma ex_B : ex_S *m R *m ex_S = ex_M^T *m ex_M.
Proof.
have ET : ex_S^T = ex_S by apply/matrixP => i j; rewrite !mxE; move: i j; apply: ord3; apply: ord3.
by rewrite -ex_YS trmx_mul ET /R gram1 !mulmxA.
Qed.

Definition ex_BB : 'M[C]_3 := mx3 [:: [:: 5%:R; 3%:R; 0]; [:: 3%:R; 5%:R; 0]; [:: 0; 0; 9%:R]].

Lemma ex_MM : ex_M^T *m ex_M = ex_BB.
Proof.
apply/matrixP => i j; rewrite mxE sum3 !mxE.
have E4 : 2%:R * 2%:R = 4%:R :> C by rewrite -natrM.
have E5 : 1 + 4%:R = 5%:R :> C by rewrite -[1]/(1%:R) -natrD.
have E3 : - 1 + 4%:R = 3%:R :> C by rewrite addrC -[X in _ - X]/(1%:R) -natrB.
move: i j; apply: ord3; apply: ord3; rewrite /= ?(mulr0, mul0r, mulr1, mul1r, addr0, add0r) ?mulrNN ?mulr1 ?E4 ?E5 ?E3 //.
by rewrite -natrM.
Qed.

Lemma ex_pair r u : RightPair ex_BB r u -> u != 0 -> `|2%:R| <= `|r|.
Proof.
move=> H Hu; have H0 := H 0; have H1 := H o1; have H2 := H o2.
rewrite !sum3 !mxE /= ?(mul0r, addr0, add0r) in H0 H1 H2.
set a := u 0 0 in H0 H1 H2; set b := u o1 0 in H0 H1 H2; set c := u o2 0 in H0 H1 H2.
have [Zc|Nc] := eqVneq c 0; last first.
  have -> : r = 9%:R by apply/esym; apply: (mulIf Nc).
  by rewrite !normr_nat ler_nat.
have [Eab|Nab] := eqVneq a b; last first.
  have Nd : a - b != 0 by rewrite subr_eq0.
  suff -> : r = 2%:R by [].
  apply: (mulIf Nd); rewrite mulrBr -H0 -H1 mulrBr.
  have E5 : 5%:R = 2%:R + 3%:R :> C by rewrite -natrD.
  rewrite E5; apply: esym; exact: ring_ab.
have Na : a != 0.
  apply: contra Hu => /eqP Za; apply/eqP/matrixP => i j; rewrite [j]ord1 [RHS]mxE; move: i; apply: ord3 => //.
  by rewrite -/b -Eab.
have -> : r = 8%:R.
  by apply/esym; apply: (mulIf Na); rewrite -H0 -Eab -mulrDl -natrD.
by rewrite !normr_nat ler_nat.
Qed.

Lemma ex_eigs_ok : EigsOf ex_BB (ex_eigs ex_BB).
Proof.
exists 2%:R, ex_v; split=> //.
- apply/eqP => E; have := congr1 (fun M : 'cV_3 => M 0 0) E; rewrite !mxE /= => /eqP; by rewrite oner_eq0.
- have E2 : 5%:R - 3%:R = 2%:R :> C by rewrite -natrB.
  apply: ord3; rewrite sum3 !mxE /= ?(mulr0, mul0r, mulr1, mul1r, addr0, add0r, mulrN1) //.
  by rewrite -E2 opprB.
- by move=> r u Hu HR; apply: ex_pair HR Hu.
Qed.


Lemma ex_W : Weights 1 (None : option 'rV[C]_3) = const_mx 1.
Proof. by apply/matrixP => i j; rewrite !mxE invr1. Qed.

Lemma ex_spanning : Spanning ex_X.
Proof.
move=> v H; apply/matrixP => i j; rewrite [j]ord1 [RHS]mxE.
have H0 := H 0; have H1 := H o1; have H2 := H o2.
rewrite !sum3 !mxE /= ?(mul0r, mul1r, addr0, add0r) in H0 H1 H2.
move: i; apply: ord3 => //.
by apply/eqP; have /eqP := H1; rewrite mulf_eq0 pnatr_eq0.
Qed.

Lemma ex_positive : PositiveMass (Weights 1 (None : option 'rV[C]_3)) ex_X (frobenius G * 0).
Proof.
rewrite mulr0 ex_W; apply: positive_spanning => //; last exact: ex_spanning.
by move=> i; rewrite mxE ltr01.
Qed.

Lemma ex_point : at_point ex_eigh ex_eigs (G, Gd, R) 0 0 = Value (Some (sqrtC 2%:R), ex_v).
Proof. by rewrite /at_point /= ReK // ler0n. Qed.

Lemma ex_eigs_arg : let SQ := sq_matrix ex_eigh G 0 in
  EigsOf (SQ *m numerator G Gd R 0 *m SQ) (ex_eigs (SQ *m numerator G Gd R 0 *m SQ)).
Proof. by rewrite /= ex_sq ex_num ex_B ex_MM; apply: ex_eigs_ok. Qed.

Lemma ex_not_attained :
  ~ Attains (Weights 1 (None : option 'rV[C]_3)) ex_X ex_Y (frobenius G * 0) 0 (sqrtC 2%:R) ex_v.
Proof.
case=> _; rewrite /mass mulr0 mul0r addr0 sqrtCK ex_W /defect /size_of !sum3 !mxE /=.
rewrite !(mulr0, mul0r, mulr1, mul1r, addr0, add0r, subr0, mulrNN, mulrN1, normr0, expr0n, normrN, normr1, expr1n) /=.
have -> : 1 + 2%:R = 3%:R :> C by rewrite -[1]/(1%:R) -natrD.
have -> : 2%:R - 4%:R = - 2%:R :> C by rewrite -opprB -natrB.
rewrite normrN !normr_nat -!natrX -!natrD -[1]/(1%:R) -natrD -natrM => /eqP.
by rewrite eqr_nat.
Qed.

End Ex.
