(** * Hermitian matrices: spectral decomposition and smallest eigenvalue (lemmas for C101). *)

From mathcomp Require Import all_ssreflect all_algebra.
From Verif Require Import ResModel.
Import Order.Theory GRing.Theory Num.Theory.
Set Implicit Arguments.
Unset Strict Implicit.
Unset Printing Implicit Defensive.
Local Open Scope ring_scope.

Section Herm.
Variable C : numClosedFieldType.

Definition ct m n (M : 'M[C]_(m, n)) : 'M[C]_(n, m) := (conj_mx M)^T.

Lemma ctE m n (M : 'M[C]_(m, n)) i j : ct M i j = (M j i)^*.
Proof. by rewrite !mxE. Qed.

Lemma ctM m n p (M : 'M[C]_(m, n)) (L : 'M[C]_(n, p)) : ct (M *m L) = ct L *m ct M.
Proof. by rewrite /ct /conj_mx map_mxM trmx_mul. Qed.

Lemma ctK m n (M : 'M[C]_(m, n)) : ct (ct M) = M.
Proof. by apply/matrixP => i j; rewrite !ctE conjCK. Qed.

Lemma ctB m n (M L : 'M[C]_(m, n)) : ct (M - L) = ct M - ct L.
Proof. by apply/matrixP => i j; rewrite !mxE rmorphB. Qed.

Lemma ctZ m n a (M : 'M[C]_(m, n)) : ct (a *: M) = a^* *: ct M.
Proof. by apply/matrixP => i j; rewrite !mxE rmorphM. Qed.

Lemma ct_scalar n a : ct (a%:M : 'M[C]_n) = (a^*)%:M.
Proof. by apply/matrixP => i j; rewrite ctE !mxE eq_sym rmorphMn. Qed.

Lemma mul_ct_eq0 m n (N : 'M[C]_(m, n)) : N *m ct N = 0 -> N = 0.
Proof.
move=> Z; apply/matrixP => i j; rewrite [RHS]mxE.
have E : \sum_k `|N i k| ^+ 2 = 0.
  have := congr1 (fun M : 'M_m => M i i) Z; rewrite !mxE => E; rewrite -[RHS]E; apply: eq_bigr => k _.
  by rewrite ctE normCK.
have P k : true -> 0 <= `|N i k| ^+ 2 by move=> _; apply: exprn_ge0.
by have /eqP := psumr_eq0P P E (i := j) isT; rewrite expf_eq0 /= normr_eq0 => /eqP.
Qed.

Section Diag.
Variables (n : nat) (B : 'M[C]_n.+1).
Hypothesis HB : ct B = B.

(** Eigenvalues of a Hermitian matrix are real. *)
Lemma herm_rows m (N : 'M[C]_(m, n.+1)) r : N *m B = r *: N -> r \is Num.real \/ N = 0.
Proof.
move=> E; have [Hr|Hr] := boolP (r \is Num.real); first by left.
right; apply: mul_ct_eq0.
have E1 : N *m B *m ct N = r *: (N *m ct N) by rewrite E scalemxAl.
have E2 : N *m B *m ct N = r^* *: (N *m ct N) by rewrite -[B]HB -mulmxA -ctM E ctZ scalemxAr.
have Z : (r - r^*) *: (N *m ct N) = 0 by rewrite scalerBl -E1 -E2 subrr.
have H0 : r - r^* != 0.
  by apply: contra Hr; rewrite subr_eq0 => /eqP Er; apply/CrealP.
by apply: (scalerI H0); rewrite Z scaler0.
Qed.

Lemma herm_square m (N : 'M[C]_(m, n.+1)) r :
  N *m (B - r%:M) *m (B - r%:M) = 0 -> N *m (B - r%:M) = 0.
Proof.
set K := _ - _ => Z.
have [Hr|//] : r \is Num.real \/ N *m K = 0.
  apply: herm_rows; apply/eqP; rewrite -subr_eq0 -mul_mx_scalar -mulmxBr; apply/eqP; exact: Z.
apply: mul_ct_eq0; have HK : ct K = K by rewrite ctB HB ct_scalar conj_Creal.
by rewrite ctM HK mulmxA Z mul0mx.
Qed.

Lemma hornerXsub r : horner_mx B ('X - r%:P) = B - r%:M.
Proof. by rewrite rmorphB /= horner_mx_X horner_mx_C. Qed.

Lemma horner_undup rs : forall M : 'M[C]_n.+1,
  M *m horner_mx B (\prod_(r <- rs) ('X - r%:P)) = 0 ->
  M *m horner_mx B (\prod_(r <- undup rs) ('X - r%:P)) = 0.
Proof.
elim: rs => [//|r rs IH] M /=.
rewrite big_cons rmorphM /= mulmxA => H1; have {}H1 := IH _ H1.
case: ifP => Hin; last by rewrite big_cons rmorphM /= mulmxA.
have Hu : r \in undup rs by rewrite mem_undup.
pose Q : {poly C} := \prod_(j <- rem r (undup rs)) ('X - j%:P).
have EQ : \prod_(r <- undup rs) ('X - r%:P) = Q * ('X - r%:P) :> {poly C}.
  by rewrite (perm_big _ (perm_to_rem Hu)) big_cons mulrC.
have Hc : (B - r%:M) *m horner_mx B Q = horner_mx B Q *m (B - r%:M).
  by rewrite -hornerXsub; exact: (comm_horner_mx2 B ('X - r%:P) Q).
have EH : horner_mx B (Q * ('X - r%:P)) = horner_mx B Q *m (B - r%:M) by rewrite rmorphM /= hornerXsub.
rewrite EQ EH !mulmxA in H1 *.
apply: herm_square; rewrite -[RHS]H1 hornerXsub -!mulmxA; congr (M *m _).
by rewrite !mulmxA Hc.
Qed.

Lemma herm_diagonalizable : diagonalizable B.
Proof.
apply/diagonalizableP.
have [rs Ers] := closed_field_poly_normal (mxminpoly B).
exists (undup rs); first exact: undup_uniq.
apply: mxminpoly_min; rewrite -[LHS]mul1mx; apply: horner_undup; rewrite mul1mx.
have := mx_root_minpoly B; rewrite Ers (monicP (mxminpoly_monic B)) scale1r => ->; by [].
Qed.

(** Every row vector is a sum of orthogonal eigenvectors. *)
Lemma herm_decomp (x : 'rV[C]_n.+1) :
  exists (rs : seq C) (y : 'I_(size rs) -> 'rV[C]_n.+1),
    [/\ uniq rs, x = \sum_i y i & forall i, y i *m B = rs`_i *: y i].
Proof.
have /diagonalizablePeigen [rs urs rs1] := herm_diagonalizable.
rewrite (big_nth 0) big_mkord in rs1.
have /sub_sumsmxP [u Eu] : (x <= \sum_(i < size rs) eigenspace B rs`_i)%MS.
  by rewrite rs1 submx1.
exists rs, (fun i => u i *m eigenspace B rs`_i); split => // i.
by apply/eigenspaceP; apply: submxMl.
Qed.

Definition sq m (x : 'rV[C]_m) : C := (x *m ct x) 0 0.

Lemma sq_ge0 m (x : 'rV[C]_m) : 0 <= sq x.
Proof. by rewrite /sq mxE; apply: sumr_ge0 => k _; rewrite ctE -normCK exprn_ge0. Qed.

Lemma sq_eq0 m (x : 'rV[C]_m) : sq x = 0 -> x = 0.
Proof. by move=> E; apply: mul_ct_eq0; apply/matrixP => i j; rewrite !ord1 [RHS]mxE -/(sq x). Qed.

(** The smallest eigenvalue bounds the quadratic form of a positive semi-definite matrix. *)
Lemma herm_min (mu : C) (x : 'rV[C]_n.+1) :
  (forall y : 'rV[C]_n.+1, 0 <= (y *m B *m ct y) 0 0) ->
  (forall r (y : 'rV[C]_n.+1), y != 0 -> y *m B = r *: y -> `|mu| <= `|r|) ->
  `|mu| * sq x <= (x *m B *m ct x) 0 0.
Proof.
move=> Hpsd Hmin.
have [rs [y [urs -> Ey]]] := herm_decomp x.
have Hr i : y i != 0 -> 0 <= rs`_i.
  move=> Hy; have := Hpsd (y i); rewrite Ey -scalemxAl mxE -/(sq (y i)) pmulr_lge0 //.
  rewrite lt_neqAle sq_ge0 andbT eq_sym; apply: contra Hy => /eqP /sq_eq0 ->; exact: eqxx.
have Ho i j : i != j -> y i *m ct (y j) = 0.
  move=> Hij; have [->|Hyi] := eqVneq (y i) 0; first by rewrite mul0mx.
  have [->|Hyj] := eqVneq (y j) 0.
    by apply/matrixP => a b; rewrite mxE big1 ?mxE // => k _; rewrite ctE mxE rmorph0 mulr0.
  have E1 : y i *m B *m ct (y j) = rs`_i *: (y i *m ct (y j)) by rewrite Ey scalemxAl.
  have E2 : y i *m B *m ct (y j) = rs`_j *: (y i *m ct (y j)).
    rewrite -[B]HB -mulmxA -ctM Ey ctZ -scalemxAr; congr (_ *: _); apply: conj_Creal.
    by apply: ger0_real; apply: Hr.
  have H0 : rs`_i - rs`_j != 0 by rewrite subr_eq0 nth_uniq.
  by apply: (scalerI H0); rewrite scaler0 scalerBl -E1 -E2 subrr.
have Ect (M : 'rV[C]_n.+1) : M *m ct (\sum_i y i) = \sum_i M *m ct (y i).
  rewrite -mulmx_sumr; congr (_ *m _); apply/matrixP => a b.
  by rewrite ctE !summxE rmorph_sum; apply: eq_bigr => k _; rewrite ctE.
have E1 : sq (\sum_i y i) = \sum_i sq (y i).
  rewrite /sq mulmx_suml summxE; apply: eq_bigr => i _; rewrite Ect summxE (bigD1 i) //= big1 ?addr0 //.
  by move=> j Hj; rewrite Ho ?mxE // eq_sym.
have E2 : ((\sum_i y i) *m B *m ct (\sum_i y i)) 0 0 = \sum_(i < size rs) rs`_i * sq (y i).
  rewrite !mulmx_suml summxE; apply: eq_bigr => i _; rewrite Ey -scalemxAl mxE Ect summxE.
  by rewrite (bigD1 i) //= big1 ?addr0 // => j Hj; rewrite Ho ?mxE // eq_sym.
rewrite E1 E2 mulr_sumr; apply: ler_sum => i _.
have [->|Hy] := eqVneq (y i) 0; first by rewrite /sq mul0mx mxE !mulr0.
apply: ler_wpmul2r; first exact: sq_ge0.
by rewrite -[leRHS]ger0_norm ?Hr //; apply: Hmin (Ey i).
Qed.

End Diag.
End Herm.
