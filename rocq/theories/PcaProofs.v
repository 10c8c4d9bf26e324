(** * Lemmas about principal components *)

From Coq Require Import String List ZArith.
From mathcomp Require Import all_ssreflect all_algebra.
From Verif Require Import RingTac Np ScaModel ScaProofs PcaModel PcaSpec.
Import Order.Theory GRing.Theory Num.Theory.
Set Implicit Arguments.
Unset Strict Implicit.
Unset Printing Implicit Defensive.
Local Open Scope ring_scope.

Section Algebra.
Variable R : rcfType.
Add Ring RRing : (rt_theory R).

Lemma sq_norm_tr m n (A : 'M[R]_(m, n)) : sq_norm A = \tr (A *m A^T).
Proof.
rewrite /sq_norm /mxtrace; apply: eq_bigr => i _; rewrite mxE; apply: eq_bigr => j _; by rewrite mxE expr2.
Qed.
Lemma sq_norm_trT m n (A : 'M[R]_(m, n)) : sq_norm A = \tr (A^T *m A).
Proof. by rewrite sq_norm_tr mxtrace_mulC. Qed.
Lemma sq_normT m n (A : 'M[R]_(m, n)) : sq_norm A^T = sq_norm A.
Proof. by rewrite sq_norm_tr trmxK -sq_norm_trT. Qed.
Lemma sq_norm_ge0 m n (A : 'M[R]_(m, n)) : 0 <= sq_norm A.
Proof. by apply: sumr_ge0 => i _; apply: sumr_ge0 => j _; exact: sqr_ge0. Qed.
Lemma sq_norm_eq0 m n (A : 'M[R]_(m, n)) : sq_norm A = 0 -> A = 0.
Proof.
move=> H; apply/matrixP => i j; rewrite mxE.
have H1 : \sum_j A i j ^+ 2 = 0.
{ have P i' : true -> 0 <= \sum_j A i' j ^+ 2 by move=> _; apply: sumr_ge0 => j' _; exact: sqr_ge0.
  exact: (psumr_eq0P P H). }
have P j' : true -> 0 <= A i j' ^+ 2 by move=> _; exact: sqr_ge0.
have := psumr_eq0P P H1 (isT : true) (i := j).
by move/eqP; rewrite sqrf_eq0 => /eqP.
Qed.

Lemma sq_normD m n (A B : 'M[R]_(m, n)) : \tr (A *m B^T) = 0 -> sq_norm (A + B) = sq_norm A + sq_norm B.
Proof.
move=> H; have -> : sq_norm A + sq_norm B = sq_norm A + sq_norm B + 2%:R * \tr (A *m B^T) by rewrite H mulr0 addr0.
rewrite /sq_norm /mxtrace mulr_sumr -!big_split /=.
apply: eq_bigr => i _; rewrite mxE mulr_sumr -!big_split /=; apply: eq_bigr => j _.
by rewrite !mxE sqrrD mulr_natl addrAC.
Qed.

(** Pythagoras for the projection to the row space of orthonormal rows. *)
Lemma sq_norm_proj m d k (A : 'M[R]_(m, d)) (W : 'M[R]_(k, d)) : W *m W^T = 1%:M ->
  sq_norm (A - A *m W^T *m W) = sq_norm A - sq_norm (A *m W^T).
Proof.
move=> HW; rewrite !sq_norm_tr linearB /= !trmx_mul trmxK mulmxBl !mulmxBr !mulmxA.
have -> : A *m W^T *m W *m W^T *m W *m A^T = A *m W^T *m W *m A^T by rewrite -(mulmxA _ W W^T) HW mulmx1.
by rewrite subrr subr0 linearB.
Qed.

Lemma sq_norm_le m d k (A : 'M[R]_(m, d)) (W : 'M[R]_(k, d)) : W *m W^T = 1%:M -> sq_norm (A *m W^T) <= sq_norm A.
Proof. by move=> HW; rewrite -subr_ge0 -(sq_norm_proj A HW) sq_norm_ge0. Qed.

(** The weighted sum of numbers between 0 and 1. *)
Lemma weighted_le q k (a h : 'I_q -> R) (t : nat) : (t <= k)%N -> (k <= q)%N ->
  (forall j, 0 <= a j) -> (forall i j : 'I_q, (i <= j)%N -> a j <= a i) ->
  (forall j, 0 <= h j <= 1) -> \sum_j h j <= t%:R ->
  \sum_j a j * h j <= \sum_(j < q | (j < k)%N) a j.
Proof.
move=> Ht Hk Ha Hs Hh Hsum.
pose b := if insub k is Some j then a j else 0 : R.
have Hb0 : 0 <= b by rewrite /b; case: insubP.
have Hlo (j : 'I_q) : (j < k)%N -> b <= a j.
{ move=> Hj; rewrite /b; case: insubP => [j' _ Ej|//]; apply: Hs; rewrite Ej; exact: ltnW. }
have Hhi (j : 'I_q) : (k <= j)%N -> a j <= b.
{ move=> Hj; rewrite /b; case: insubP => [j' _ Ej|]; first by apply: Hs; rewrite Ej.
  by rewrite (leq_ltn_trans Hj (ltn_ord j)). }
have Ek : \sum_(j < q) (if (j < k)%N then 1 else 0) = k%:R :> R.
{ rewrite -big_mkcond /= -(big_ord_widen q (fun=> 1 : R) Hk) /=.
  by rewrite sumr_const card_ord. }
rewrite [X in _ <= X]big_mkcond /= -subr_le0 -sumrB.
apply: (@le_trans _ _ (\sum_(j < q) b * (h j - (if (j < k)%N then 1 else 0)))).
- apply: ler_sum => j _; have /andP [H0 H1] := Hh j; case: ltnP => Hj.
  + rewrite -subr_ge0 (_ : _ - _ = (a j - b) * (1 - h j)); last first.
    { mring R. }
    by rewrite mulr_ge0 // subr_ge0 // Hlo.
  + by rewrite !subr0 ler_wpmul2r // Hhi.
- rewrite -mulr_sumr sumrB Ek mulr_ge0_le0 // subr_le0.
  by apply: le_trans Hsum _; rewrite ler_nat.
Qed.



Lemma diag_mul n (a b : 'rV[R]_n) : diag_mx a *m diag_mx b = diag_mx (\row_j (a 0 j * b 0 j)).
Proof. apply/matrixP => i j; rewrite mul_diag_mx !mxE; case: eqP => [->|_]; by rewrite ?mulr1n ?mulr0n ?mulr0. Qed.

Lemma diag_one n (a : 'rV[R]_n) : (forall j, a 0 j = 1) -> diag_mx a = 1%:M.
Proof. move=> H; apply/matrixP => i j; rewrite !mxE H; by case: eqP => //= _; rewrite mulr1n. Qed.

Lemma sq_norm_diag n k (a : 'rV[R]_n) (G : 'M[R]_(n, k)) : sq_norm (diag_mx a *m G) = \sum_j a 0 j ^+ 2 * sq_norm (row j G).
Proof.
rewrite /sq_norm; apply: eq_bigr => i _; rewrite big_ord1 mulr_sumr; apply: eq_bigr => j _.
by rewrite mul_diag_mx !mxE exprMn.
Qed.

Lemma sq_norm_rows n k (G : 'M[R]_(n, k)) : sq_norm G = \sum_j sq_norm (row j G).
Proof. by rewrite /sq_norm; apply: eq_bigr => i _; rewrite big_ord1; apply: eq_bigr => j _; rewrite mxE. Qed.

Lemma sq_norm_isoL n q k (U : 'M[R]_(n, q)) (G : 'M[R]_(q, k)) : U^T *m U = 1%:M -> sq_norm (U *m G) = sq_norm G.
Proof. by move=> HU; rewrite !sq_norm_trT trmx_mul mulmxA -(mulmxA G^T) HU mulmx1. Qed.

(** ** signs *)

Lemma sign_sq n q (U : 'M[R]_(n, q)) j : U^T *m U = 1%:M -> flip_signs U 0 j * flip_signs U 0 j = 1.
Proof.
move=> HU; rewrite mxE; case: pickP => [i /forallP H|_]; last by rewrite mul1r.
have N : U i j != 0.
{ apply/eqP => E; have := congr1 (fun M : 'M[R]_q => M j j) HU; rewrite !mxE eqxx big1.
  - by move/esym/eqP; rewrite oner_eq0.
  - move=> l _; rewrite !mxE; have := H l; rewrite E normr0 normr_le0 => /eqP ->; by rewrite mul0r. }
by rewrite -expr2 sqr_sg N.
Qed.

Lemma flip_svd n d q (A : 'M[R]_(n, d)) U sv (V : 'M[R]_(q, d)) : IsSvd A U sv V ->
  IsSvd A (U *m diag_mx (flip_signs U)) sv (diag_mx (flip_signs U) *m V).
Proof.
move=> [HU HV HA H0 Hs]; set g := flip_signs U.
have G : diag_mx g *m diag_mx g = 1%:M by rewrite diag_mul; apply: diag_one => j; rewrite mxE; exact: sign_sq.
have C : diag_mx g *m diag_mx sv = diag_mx sv *m diag_mx g.
{ by rewrite !diag_mul; congr diag_mx; apply/rowP => j; rewrite !mxE mulrC. }
split=> //.
- by rewrite trmx_mul tr_diag_mx mulmxA -(mulmxA _ U^T) HU mulmx1.
- by rewrite trmx_mul tr_diag_mx mulmxA -(mulmxA _ V) HV mulmx1.
- by rewrite -(mulmxA U (diag_mx g)) C !mulmxA -(mulmxA _ (diag_mx g) (diag_mx g)) G mulmx1.
Qed.

(** ** the first k rows *)

Definition sel q k : 'M[R]_(k, q) := \matrix_(i, j) (val i == val j)%:R.

Lemma first_rowsE q k d (V : 'M[R]_(q, d)) : (k <= q)%N -> first_rows k V = sel q k *m V.
Proof.
move=> Hk; apply/matrixP => i j; rewrite !mxE.
have Hi : (val i < q)%N by exact: leq_trans (ltn_ord i) Hk.
rewrite insubT /= (bigD1 (Ordinal Hi)) //= mxE eqxx mul1r big1 ?addr0 //.
move=> l Hl; rewrite mxE /= (_ : (val i == val l) = false) ?mul0r //.
apply/negbTE; apply: contra Hl => /eqP E; apply/eqP; exact: val_inj.
Qed.

Lemma selT q k : (k <= q)%N -> sel q k *m (sel q k)^T = 1%:M.
Proof.
move=> Hk; rewrite -(first_rowsE _ Hk); apply/matrixP => i j; rewrite !mxE.
have Hi : (val i < q)%N by exact: leq_trans (ltn_ord i) Hk.
by rewrite insubT /= !mxE /= eq_sym.
Qed.

Lemma sel_diag q k (sv : 'rV[R]_q) : (k <= q)%N -> diag_mx sv *m (sel q k)^T = (sel q k)^T *m diag_mx (first_entries k sv).
Proof.
move=> Hk; apply/matrixP => i j; rewrite mul_diag_mx mul_mx_diag !mxE.
have Hj : (val j < q)%N by exact: leq_trans (ltn_ord j) Hk.
rewrite insubT /=; case: eqP => E; last by rewrite mulr0 mul0r.
by rewrite mulr1 mul1r; congr (sv 0 _); apply: val_inj.
Qed.

(** ** the decomposition cut to k components *)

Section Cut.
Variables (n d q k : nat) (A : 'M[R]_(n, d)) (U : 'M[R]_(n, q)) (sv : 'rV[R]_q) (V : 'M[R]_(q, d)).
Hypothesis HS : IsSvd A U sv V.
Hypothesis Hk : (k <= q)%N.
Let Vk := first_rows k V.
Let Uk := (first_rows k U^T)^T.
Let sk := first_entries k sv.

Lemma cut_orth : Vk *m Vk^T = 1%:M.
Proof.
case: HS => [_ HV _ _ _]; rewrite /Vk first_rowsE // trmx_mul mulmxA -(mulmxA _ V) HV mulmx1; exact: selT.
Qed.

Lemma cut_orthU : Uk^T *m Uk = 1%:M.
Proof.
case: HS => [HU _ _ _ _]; rewrite /Uk trmxK first_rowsE // trmx_mul trmxK mulmxA -(mulmxA _ U^T) HU mulmx1; exact: selT.
Qed.

Lemma cut_scores : A *m Vk^T = Uk *m diag_mx sk.
Proof.
case: HS => [_ HV HA _ _]; rewrite /Vk /Uk !first_rowsE // !trmx_mul trmxK HA.
by rewrite mulmxA -(mulmxA _ V) HV mulmx1 -!mulmxA sel_diag.
Qed.

Lemma total_energy : sq_norm A = \sum_j sv 0 j ^+ 2.
Proof.
case: HS => [HU HV -> _ _]; rewrite -mulmxA sq_norm_isoL // sq_norm_diag; apply: eq_bigr => j _.
have -> : sq_norm (row j V) = 1; last by rewrite mulr1.
have := congr1 (fun M : 'M[R]_q => M j j) HV; rewrite mxE [RHS]mxE eqxx /= => E.
rewrite /sq_norm big_ord1 -[RHS]E; apply: eq_bigr => l _; by rewrite !mxE expr2.
Qed.

Lemma kept_energy : sq_norm (A *m Vk^T) = \sum_(j < q | (j < k)%N) sv 0 j ^+ 2.
Proof.
rewrite cut_scores sq_norm_isoL ?cut_orthU //.
rewrite -[diag_mx sk]mulmx1 sq_norm_diag.
pose F (i : nat) := if insub i is Some i' then sv 0 (i' : 'I_q) ^+ 2 else 0 : R.
have HF (j : 'I_q) : F j = sv 0 j ^+ 2 by rewrite /F insubT //= => Hj; congr (sv 0 _ ^+ 2); apply: val_inj.
rewrite -(eq_bigr _ (fun j _ => HF j)) -(big_ord_widen q F Hk); apply: eq_bigr => j _.
have -> : sq_norm (row j (1%:M : 'M[R]_k)) = 1.
{ rewrite /sq_norm big_ord1 (bigD1 j) //= big1 ?addr0; first by rewrite !mxE eqxx expr1n.
  move=> l Hl; by rewrite !mxE eq_sym (negbTE Hl) expr0n. }
by rewrite mulr1 mxE /F; case: insub => [a|] //; rewrite expr0n.
Qed.

Lemma cut_error : sq_norm (A - A *m Vk^T *m Vk) = \sum_(j < q | (k <= j)%N) sv 0 j ^+ 2.
Proof.
rewrite sq_norm_proj ?cut_orth // kept_energy total_energy (bigID (fun j : 'I_q => (j < k)%N)) /= addrAC subrr add0r.
by apply: eq_bigl => j; rewrite -leqNgt.
Qed.

(** No other projection to at most k directions keeps more. *)
Lemma cut_best t (W : 'M[R]_(t, d)) : (t <= k)%N -> W *m W^T = 1%:M -> sq_norm (A *m W^T) <= sq_norm (A *m Vk^T).
Proof.
move=> Ht HW; rewrite kept_energy; case: HS => [HU HV HA H0 Hs].
have -> : sq_norm (A *m W^T) = \sum_j sv 0 j ^+ 2 * sq_norm (row j (V *m W^T)).
{ by rewrite HA -!mulmxA sq_norm_isoL // sq_norm_diag. }
apply: (weighted_le (t := t)) => //.
- by move=> j; exact: sqr_ge0.
- by move=> i j Hij; rewrite ler_sqr ?nnegrE //; exact: Hs.
- move=> j; rewrite sq_norm_ge0 /= row_mul; apply: le_trans (sq_norm_le _ HW) _.
  have := congr1 (fun M : 'M[R]_q => M j j) HV; rewrite mxE [RHS]mxE eqxx /= => E.
  rewrite /sq_norm big_ord1 -[X in _ <= X]E le_eqVlt; apply/orP; left; apply/eqP.
  by apply: eq_bigr => l _; rewrite !mxE expr2.
- rewrite -sq_norm_rows -sq_normT trmx_mul trmxK; apply: le_trans (sq_norm_le _ HV) _.
  by rewrite sq_norm_tr HW mxtrace1.
Qed.

End Cut.

(** ** the mean *)

Section Mean.
Variables (n d : nat) (X : 'M[R]_(n, d)).
Hypothesis Hn : (0 < n)%N.

Lemma column_meanE : column_mean X = average_row X.
Proof.
apply/rowP => j; rewrite /column_mean !mxE summxE mulrC; congr (_ * _).
by apply: eq_bigr => i _; rewrite mxE.
Qed.

Lemma minus_meanE m (Y : 'M[R]_(m, d)) b : minus_mean Y b = Y - repeat_row m b.
Proof. by apply/matrixP => i j; rewrite !mxE. Qed.

Lemma centered_sum (M : 'M[R]_(d, d)) (c : 'rV[R]_d) :
  \tr ((X - repeat_row n (average_row X)) *m M *m (repeat_row n c)^T) = 0.
Proof.
set A := X - _.
have EA : (const_mx 1 : 'rV[R]_n) *m A = 0.
{ apply/rowP => j; rewrite !mxE.
  rewrite (eq_bigr (fun i => X i j - (\sum_i X i j) / n%:R)); last by move=> i _; rewrite !mxE mul1r.
  rewrite sumrB sumr_const card_ord -[_ *+ n]mulr_natr divfK ?subrr //.
  by rewrite pnatr_eq0 -lt0n. }
have -> : (repeat_row n c)^T = c^T *m const_mx 1.
{ apply/matrixP => i j; by rewrite !mxE big_ord1 !mxE mulr1. }
by rewrite mulmxA mxtrace_mulC !mulmxA EA !mul0mx mxtrace0.
Qed.

Lemma mean_best (Q : 'M[R]_d) b :
  sq_norm ((X - repeat_row n (average_row X)) *m Q) <= sq_norm ((X - repeat_row n b) *m Q).
Proof.
set A := X - repeat_row n (average_row X).
have -> : X - repeat_row n b = A + repeat_row n (average_row X - b).
{ apply/matrixP => i j; rewrite !mxE; by rewrite addrA subrK. }
move: (average_row X - b) => c.
rewrite (mulmxDl A) (@sq_normD _ _ (A *m Q)); first by rewrite ler_addl sq_norm_ge0.
rewrite trmx_mul mulmxA -(mulmxA A); exact: centered_sum.
Qed.

Lemma centered_zero : (const_mx 1 : 'rV[R]_n) *m (X - repeat_row n (average_row X)) = 0.
Proof.
apply/rowP => j; rewrite !mxE.
rewrite (eq_bigr (fun i => X i j - (\sum_i X i j) / n%:R)); last by move=> i _; rewrite !mxE mul1r.
rewrite sumrB sumr_const card_ord -[_ *+ n]mulr_natr divfK ?subrr //.
by rewrite pnatr_eq0 -lt0n.
Qed.

End Mean.

Lemma average_row_mul n k (T : 'M[R]_(n, k)) : average_row T = n%:R^-1 *: ((const_mx 1 : 'rV[R]_n) *m T).
Proof. by apply/rowP => j; rewrite !mxE mulrC; congr (_ * _); apply: eq_bigr => i _; rewrite mxE mul1r. Qed.

(** Projections do not get better by moving the subspace. *)
Lemma project_best n d (X : 'M[R]_(n, d)) q (U : 'M[R]_(n, q)) sv (V : 'M[R]_(q, d)) k t b (W : 'M[R]_(t, d)) :
  (0 < n)%N -> IsSvd (X - repeat_row n (average_row X)) U sv V -> (k <= q)%N -> (t <= k)%N -> W *m W^T = 1%:M ->
  sq_norm (X - project (average_row X) (first_rows k V) X) <= sq_norm (X - project b W X).
Proof.
move=> Hn HS Hk Ht HW; rewrite /project !opprD !addrA.
set A := X - repeat_row n (average_row X).
rewrite sq_norm_proj; last exact: cut_orth HS Hk.
apply: le_trans (_ : sq_norm (A - A *m W^T *m W) <= _).
- by rewrite (sq_norm_proj _ HW) ler_add2l ler_opp2; apply: cut_best HS Hk _ _ Ht HW.
- have E (B : 'M[R]_(n, d)) : B - B *m W^T *m W = B *m (1%:M - W^T *m W) by rewrite mulmxBr mulmx1 mulmxA.
  by rewrite !E; exact: mean_best.
Qed.

End Algebra.

Section Object.
Variable R : rcfType.
Variable I : Type.
Variable svd : svd_t R.
Variable n_components : option nat.
Variable whiten : bool.
Local Notation k_of := (components n_components).

(** ** numbers *)

Section Numbers.
Variables (n d : nat) (X : 'M[R]_(n, d)) (sv : 'rV[R]_(minn n d)).
Hypothesis Hn : (0 < n)%N.
Let k := k_of n d.
Hypothesis Hk : (k <= minn n d)%N.
Hypothesis HD : Decomposed svd whiten k X sv.
Let b := average_row X.
Let A := X - repeat_row n b.

Lemma fit_numbers : exists U V, IsSvd A U sv V /\
  pca_fit svd n_components X =
  Ok (Pca b (first_rows k V) (first_entries k (\row_j (sv 0 j ^+ 2 / (n.-1)%:R))),
      existT _ k ((first_rows k U^T)^T, first_entries k sv)).
Proof.
have [U [V [E [HS _]]]] := HD; exists (U *m diag_mx (flip_signs U)), (diag_mx (flip_signs U) *m V).
split; first exact: flip_svd.
rewrite /pca_fit (_ : (if n_components is Some k then k else minn n d) = k) // ltnNge Hk /= column_meanE minus_meanE.
by rewrite E.
Qed.

Lemma scale_nz j : scale_of whiten (first_entries k (\row_j (sv 0 j ^+ 2 / (n.-1)%:R))) 0 j != 0.
Proof.
rewrite mxE; case E : whiten; last by rewrite oner_eq0.
have [U [V [_ [_ H]]]] := HD; have [H1 H2] := H E.
have Hj : (val j < minn n d)%N by exact: leq_trans (ltn_ord j) Hk.
rewrite mxE insubT /= mxE gt_eqF // sqrtr_gt0 divr_gt0 //.
- rewrite lt_def sqr_ge0 andbT sqrf_eq0; apply: H2; exact: (ltn_ord j).
- by rewrite ltr0n -ltnS prednK.
Qed.

Lemma scores_eq U V : IsSvd A U sv V ->
  pca_transform whiten (p := Pca b (first_rows k V) (first_entries k (\row_j (sv 0 j ^+ 2 / (n.-1)%:R)))) X =
  pca_scores whiten ((first_rows k U^T)^T, first_entries k sv).
Proof.
move=> HS; rewrite /pca_transform /pca_scores /= minus_meanE -/A (cut_scores HS Hk); apply/matrixP => i j.
rewrite mul_mx_diag [LHS]mxE [RHS]mxE [X in X / _]mxE.
have N := scale_nz j; move: N; rewrite mxE; case E : whiten => N; last by rewrite divr1.
apply: (canLR (mulfK N)).
have Hj : (val j < minn n d)%N by exact: leq_trans (ltn_ord j) Hk.
rewrite -mulrA; congr (_ * _); rewrite [in RHS]mxE [LHS]mxE insubT /= mxE.
have [_ _ _ H0 _] := HS.
rewrite sqrtrM ?sqr_ge0 // sqrtr_sqr ger0_norm // sqrtrV ?ler0n // mulrCA mulfV ?mulr1 //.
have [U' [V' [_ [_ H]]]] := HD; have [H1 _] := H E.
by rewrite gt_eqF // sqrtr_gt0 ltr0n -ltnS prednK.
Qed.

Lemma scores_gram U V : IsSvd A U sv V ->
  let T := pca_scores whiten ((first_rows k U^T)^T, first_entries k sv) in
  T^T *m T = diag_mx (\row_j (if whiten then (n.-1)%:R else first_entries k sv 0 j ^+ 2)).
Proof.
move=> HS T; pose w : 'rV[R]_k := \row_j (if whiten then Num.sqrt (n.-1)%:R else first_entries k sv 0 j).
have -> : T = (first_rows k U^T)^T *m diag_mx w.
{ by apply/matrixP => i j; rewrite mul_mx_diag [LHS]mxE [RHS]mxE [w 0 j]mxE; case: whiten. }
rewrite trmx_mul tr_diag_mx mulmxA -(mulmxA (diag_mx w)) (cut_orthU HS Hk) mulmx1 diag_mul; congr diag_mx.
apply/rowP => j; rewrite mxE [RHS]mxE [w 0 j]mxE; case: whiten; last by rewrite expr2.
by rewrite -expr2 sqr_sqrtr // ler0n.
Qed.

Lemma scores_average U V : IsSvd A U sv V ->
  average_row (pca_scores whiten ((first_rows k U^T)^T, first_entries k sv)) = 0.
Proof.
move=> HS; rewrite -(scores_eq HS) average_row_mul.
rewrite /pca_transform /= minus_meanE -/A; set c := scale_of _ _.
have -> : (\matrix_(i, j) ((A *m (first_rows k V)^T) i j / c 0 j)) = A *m (first_rows k V)^T *m diag_mx (\row_j (c 0 j)^-1).
{ by apply/matrixP => i j; rewrite mul_mx_diag [LHS]mxE [RHS]mxE; congr (_ * _); rewrite [RHS]mxE. }
by rewrite !mulmxA (centered_zero X Hn) !mul0mx scaler0.
Qed.

End Numbers.

Section Values.
Variables (d k : nat) (b : 'rV[R]_d) (C : 'M[R]_(k, d)) (v : 'rV[R]_k).
Let p := Pca b C v.
Hypothesis HC : C *m C^T = 1%:M.
Hypothesis Hv : forall j, scale_of whiten v 0 j != 0.
Let sc := scale_of whiten v.
Let iv : 'rV[R]_k := \row_j (sc 0 j)^-1.

Lemma transformE m (Z : 'M[R]_(m, d)) : pca_transform whiten (p := p) Z = (Z - repeat_row m b) *m C^T *m diag_mx iv.
Proof.
by rewrite /pca_transform /= minus_meanE; apply/matrixP => i j; rewrite mul_mx_diag !mxE.
Qed.

Lemma inverseE m (Z : 'M[R]_(m, k)) : pca_inverse whiten (p := p) Z = repeat_row m b + Z *m diag_mx sc *m C.
Proof.
rewrite /pca_inverse /=; apply/matrixP => i j; rewrite [RHS]mxE addrC [repeat_row m b i j]mxE !mxE; congr (_ + _).
by apply: eq_bigr => l _; rewrite mul_mx_diag !mxE mulrA.
Qed.

Lemma ivsc : diag_mx iv *m diag_mx sc = 1%:M.
Proof. by rewrite diag_mul; apply: diag_one => j; rewrite !mxE; rewrite mulVf //; have := Hv j; rewrite mxE. Qed.
Lemma sciv : diag_mx sc *m diag_mx iv = 1%:M.
Proof. by rewrite diag_mul; apply: diag_one => j; rewrite !mxE; rewrite mulfV //; have := Hv j; rewrite mxE. Qed.

Lemma transformK m (Z : 'M[R]_(m, d)) : pca_inverse whiten (p := p) (pca_transform whiten (p := p) Z) = project b C Z.
Proof. by rewrite transformE inverseE -(mulmxA _ (diag_mx iv)) ivsc mulmx1. Qed.

Lemma inverseK m (Z : 'M[R]_(m, k)) : pca_transform whiten (p := p) (pca_inverse whiten (p := p) Z) = Z.
Proof. by rewrite inverseE transformE addrC addKr -(mulmxA _ C) HC mulmx1 -mulmxA sciv mulmx1. Qed.

Lemma project_fix m (Z : 'M[R]_(m, d)) : project b C Z = Z <-> InSubspace b C Z.
Proof.
split=> [E|[K ->]]; first by exists ((Z - repeat_row m b) *m C^T); rewrite /project in E; rewrite E.
by rewrite /project [_ + K *m C - _]addrAC subrr add0r -(mulmxA K) HC mulmx1.
Qed.

End Values.

(** ** labels *)

Lemma pca_names_size k : size (pca_names k) = k.
Proof. by rewrite size_map size_iota. Qed.

Lemma pca_names_str k : all is_str (pca_names k).
Proof. by rewrite /pca_names all_map; apply/allP. Qed.

Lemma good_names n d (X : mtable R I n d) : GoodFrame X -> names_of (mkind X) (mnames X) = Ok (Some (mnames X)).
Proof. by move=> [HK [_ HN]]; rewrite /names_of (strings_all HN); case: (mkind X) HK. Qed.

Lemma p_valid n d (X : mtable R I n d) : (0 < n)%N -> (0 < d)%N -> p_validate X = Ok tt.
Proof. by move=> Hn Hd; rewrite /p_validate !eqn0Ngt Hn Hd. Qed.

Lemma p_fitE n d (X : mtable R I n d) sv s : (0 < n)%N -> (0 < d)%N -> GoodFrame X -> (k_of n d <= minn n d)%N ->
  Decomposed svd whiten (k_of n d) (vals X) sv ->
  exists U V, IsSvd (vals X - repeat_row n (average_row (vals X))) U sv V /\
  let p := Pca (average_row (vals X)) (first_rows (k_of n d) V) (first_entries (k_of n d) (\row_j (sv 0 j ^+ 2 / (n.-1)%:R))) in
  let s' := PState (Some p) (Some d) (Some (mnames X)) (if p_n_out s is Some k then Some k else Some (k_of n d)) in
  p_fit svd n_components s X = (s', Ok tt) /\
  p_fit_transform svd n_components whiten s X =
  (s', bind (p_same_type X (pca_scores whiten ((first_rows (k_of n d) U^T)^T, first_entries (k_of n d) sv)) (pca_names (k_of n d)))
            (fun T => Ok (existT _ (k_of n d) T))).
Proof.
move=> Hn Hd HG Hk HD; have [U [V [HS E]]] := fit_numbers Hk HD; exists U, V; split=> //.
rewrite /p_fit /p_fit_transform (p_valid X Hn Hd) (good_names HG) E /p_setup /= pca_names_size.
by case: (p_n_out s).
Qed.

Section Calls.
Variables (d k : nat) (b : 'rV[R]_d) (C : 'M[R]_(k, d)) (v : 'rV[R]_k) (labels : seq name).
Let p := Pca b C v.
Let s := PState (Some p) (Some d) (Some labels) (Some k).
Hypothesis Hd : (0 < d)%N.
Hypothesis Hl : size labels = d.
Hypothesis Hstr : all is_str labels.

Lemma p_transformE m (Z : mtable R I m d) : (0 < m)%N -> Labelled labels Z ->
  p_transform whiten s Z =
  Ok (existT (fun q => mtable R I m q) k (MTable (mkind Z) (mindex Z) (if mkind Z is NumpyArray then [::] else pca_names k) (pca_transform whiten (p := p) (vals Z)))).
Proof.
move=> Hm HZ; rewrite /p_transform /= (p_valid Z Hm Hd) /=.
have -> : check_header d (Some labels) (mkind Z) (mnames Z) d = Ok tt.
{ rewrite /check_header eqxx /= /names_of; case: HZ => [[-> _] //|[HK ->]].
  by case: (mkind Z) HK => // _; rewrite Hstr /= names_equal_refl. }
rewrite /=; case: eqP => // e; rewrite (eq_irrelevance e erefl) castmx_id /p_same_type pca_names_size eqxx /=.
by case: HZ => [[-> [-> _]] //|[HK _]]; case: (mkind Z) HK => // HK; case: (HK erefl).
Qed.

Lemma p_inverseE m (Z : mtable R I m k) : Labelled (pca_names k) Z ->
  p_inverse whiten s Z =
  Ok (existT (fun q => mtable R I m q) d (MTable (mkind Z) (mindex Z) (if mkind Z is NumpyArray then [::] else labels) (pca_inverse whiten (p := p) (vals Z)))).
Proof.
move=> HZ; rewrite /p_inverse /= eqxx /=.
have -> : (if mkind Z is NumpyArray then true else names_equal (pca_names k) (mnames Z)) = true.
{ by case: HZ => [[-> _] //|[HK ->]]; case: (mkind Z) HK => // _; rewrite names_equal_refl. }
case: eqP => // e; rewrite (eq_irrelevance e erefl) castmx_id /p_same_type Hl eqxx /=.
by case: HZ => [[-> [-> _]] //|[HK _]]; case: (mkind Z) HK => // HK; case: (HK erefl).
Qed.

End Calls.

End Object.
