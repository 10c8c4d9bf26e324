(** * Proofs about OnlineDMD. *)

From mathcomp Require Import all_ssreflect all_algebra.
Import Order.Theory GRing.Theory Num.Theory.
From Verif Require Import RingTac LinModel LinSpec LinProofs OnlineModel OnlineSpec.
Set Implicit Arguments.
Unset Strict Implicit.
Unset Printing Implicit Defensive.
Local Open Scope ring_scope.

Section Online.
Variable R : realFieldType.
Variable n : nat.
Add Ring RRing : (rt_theory R).
Implicit Types (A P S K D : 'M[R]_n) (x y v : 'cV[R]_n).

Definition quad S D : R := \tr (D *m S *m D^T).

Lemma mxtr_sub (B C : 'M[R]_n) : \tr (B - C) = \tr B - \tr C.
Proof. by rewrite raddfB. Qed.

Lemma trE (B : 'M[R]_1) : \tr B = B 0 0.
Proof. by rewrite /mxtrace big_ord1. Qed.

Lemma tr_rank1 (a b : 'cV[R]_n) : \tr (a *m b^T) = (b^T *m a) 0 0.
Proof. by rewrite mxtrace_mulC trE. Qed.

Lemma sq_errorE K x y : sq_error K x y = \tr ((y - K *m x) *m (y - K *m x)^T).
Proof.
rewrite /sq_error /mxtrace; apply: eq_bigr=> j _; rewrite mxE big_ord1 !mxE expr2.
by [].
Qed.

Lemma sq_normE D : sq_norm D = quad 1%:M D.
Proof.
rewrite /quad mulmx1 /mxtrace; apply: eq_bigr=> i _; rewrite mxE; apply: eq_bigr=> j _.
by rewrite mxE expr2.
Qed.

Definition posdef S := forall v, v != 0 -> 0 < (v^T *m S *m v) 0 0.

Lemma quad_rows S D : quad S D = \sum_i ((row i D)^T^T *m S *m (row i D)^T) 0 0.
Proof.
rewrite /quad /mxtrace; apply: eq_bigr=> i _; rewrite trmxK.
by rewrite -row_mul !mxE; apply: eq_bigr=> j _; rewrite !mxE.
Qed.

Lemma posdef_ge0 S v : posdef S -> 0 <= (v^T *m S *m v) 0 0.
Proof.
move=> HS; case: (eqVneq v 0)=> [->|Hv]; last by apply/ltW/HS.
by rewrite mulmx0 mxE.
Qed.

Lemma quad_ge0 S D : posdef S -> 0 <= quad S D.
Proof. by move=> HS; rewrite quad_rows; apply: sumr_ge0=> i _; apply: posdef_ge0. Qed.

Lemma quad_eq0 S D : posdef S -> quad S D = 0 -> D = 0.
Proof.
move=> HS; rewrite quad_rows=> H0.
have Hall : forall i, true -> ((row i D)^T^T *m S *m (row i D)^T) 0 0 = 0.
  by apply/psumr_eq0P=> [i _|//]; apply: posdef_ge0.
apply/row_matrixP=> i; rewrite row0.
case: (eqVneq (row i D)^T 0)=> [H|H]; first by rewrite -[row i D]trmxK H trmx0.
by have := HS _ H; rewrite Hall // ltxx.
Qed.

Definition inv (st : online R n) (J : 'M[R]_n -> R) : Prop :=
  exists S, [/\ S^T = S, posdef S, oP st *m S = 1%:M, (oP st)^T = oP st &
    forall K, J K = J (oA st) + quad S (K - oA st)].

Lemma quadD S D E : S^T = S -> quad S (D + E) = quad S D + quad S E + 2%:R * \tr (D *m S *m E^T).
Proof.
move=> HS; rewrite /quad linearD /= mulmxDl !mulmxDr !mulmxDl !mxtraceD.
have -> : \tr (E *m S *m D^T) = \tr (D *m S *m E^T).
  by rewrite -mxtrace_tr !trmx_mul trmxK HS mulmxA.
mring R.
Qed.

Lemma inv_step (w : R) (st : online R n) J x y :
  0 < w -> inv st J ->
  inv (online_update w st (x, y)) (fun K => w * (J K + sq_error K x y)).
Proof.
move=> Hw [S [HS HPd HPS HPt HJ]].
have HSP : S *m oP st = 1%:M by apply: mulmx1C.
set P := oP st in HPS HPt HSP; set A := oA st in HJ.
set Px := P *m x; set q : R := (x^T *m Px) 0 0; set c : R := 1 + q.
have Hxx : x^T *m Px = q%:M by rewrite [LHS]mx11_scalar.
have Hc : 0 < c.
  rewrite /c /q; have -> : x^T *m Px = Px^T *m S *m Px.
    by rewrite /Px trmx_mul HPt -[x^T *m P *m S]mulmxA HPS mulmx1.
  by apply: (lt_le_trans ltr01); rewrite ler_addl posdef_ge0.
have Hc0 : c != 0 by rewrite gt_eqF.
set S' := S + x *m x^T.
have HPxt : Px^T = x^T *m P by rewrite /Px trmx_mul HPt.
set P1 := P - c^-1 *: (Px *m Px^T).
have HP1 : P1 *m S' = 1%:M.
  rewrite /P1 /S' mulmxBl !mulmxDr HPS mulmxA -/Px -!scalemxAl.
  have -> : Px *m Px^T *m S = Px *m x^T by rewrite HPxt -!mulmxA HPS mulmx1.
  have -> : Px *m Px^T *m (x *m x^T) = q *: (Px *m x^T).
    rewrite -mulmxA (mulmxA Px^T) HPxt -[x^T *m P *m x]mulmxA -/Px Hxx.
    by rewrite mul_scalar_mx -scalemxAr.
  rewrite -scalerDr -[X in X + _ *: _]scale1r -scalerDl -/c scalerA mulVf // scale1r.
  by rewrite addrK.
have HP1t : P1^T = P1.
  by rewrite /P1 linearB /= linearZ /= HPt trmx_mul trmxK.
have EP : oP (online_update w st (x, y)) = w^-1 *: P1.
  change (2%:R^-1 *: (w^-1 *: P1 + (w^-1 *: P1)^T) = w^-1 *: P1).
  rewrite linearZ /= HP1t -scalerDl scalerA -mulr2n -[w^-1 *+ 2]mulr_natl mulrA mulVf ?mul1r //.
  by rewrite pnatr_eq0.
exists (w *: S'); split.
- by rewrite linearZ /= /S' linearD /= HS trmx_mul trmxK.
- move=> v Hv; rewrite -scalemxAr -scalemxAl mxE; apply: mulr_gt0=> //.
  rewrite /S' mulmxDr mulmxDl mxE; apply: ltr_paddr; last exact: HPd.
  have -> : v^T *m (x *m x^T) *m v = (x^T *m v)^T *m (x^T *m v) by rewrite trmx_mul trmxK !mulmxA.
  by rewrite mxE big_ord1 mxE -expr2 sqr_ge0.
- by rewrite EP -scalemxAl -scalemxAr HP1 scalerA mulVf ?scale1r // gt_eqF.
- by rewrite EP linearZ /= HP1t.
- move=> K.
  set A' := oA (online_update w st (x, y)).
  have EA' : A' = A + (c^-1 *: (y - A *m x)) *m Px^T by [].
  have Hgrad : (A' - A) *m S = (y - A' *m x) *m x^T.
    have -> : A' - A = (c^-1 *: (y - A *m x)) *m Px^T by rewrite EA' addrC addKr.
    have E1 : A' *m x = A *m x + (c^-1 * q) *: (y - A *m x).
      rewrite EA' mulmxDl -mulmxA HPxt -[x^T *m P *m x]mulmxA -/Px Hxx mul_mx_scalar.
      by rewrite scalerA [_ * c^-1]mulrC.
    have -> : y - A' *m x = c^-1 *: (y - A *m x).
      rewrite E1 opprD addrA -[X in X - _ *: _]scale1r -scalerBl; congr (_ *: _).
      by rewrite -[X in X - _](mulVf Hc0) -mulrBr /c addrK mulr1.
    by rewrite HPxt -!mulmxA HPS mulmx1.
  rewrite [J K]HJ [J A']HJ.
  have -> : K - A = (A' - A) + (K - A') by rewrite [RHS]addrC addrA addrNK.
  rewrite (quadD (A' - A)) // !sq_errorE.
  have -> : y - K *m x = (y - A' *m x) - (K - A') *m x.
    by rewrite mulmxBl opprB addrA addrNK.
  set D := K - A'; set e := y - A' *m x.
  have -> : \tr ((e - D *m x) *m (e - D *m x)^T)
            = \tr (e *m e^T) + quad (x *m x^T) D - 2%:R * \tr (e *m x^T *m D^T).
    rewrite [(e - _)^T]raddfB /= mulmxBl !mulmxBr !mxtr_sub /quad.
    have -> : \tr (D *m x *m e^T) = \tr (e *m x^T *m D^T).
      by rewrite -mxtrace_tr !trmx_mul trmxK mulmxA.
    rewrite trmx_mul !mulmxA; mring R.
  have -> : \tr ((A' - A) *m S *m D^T) = \tr (e *m x^T *m D^T) by rewrite Hgrad.
  have -> : quad (w *: S') D = w * (quad S D + quad (x *m x^T) D).
    by rewrite /quad -scalemxAr -scalemxAl mxtraceZ /S' mulmxDr mulmxDl mxtraceD.
  rewrite -mulrDr; congr (_ * _).
  mring R.
Qed.

Lemma stream_error_rcons w ps x y K :
  stream_error w (rcons ps (x, y)) K = w * (stream_error w ps K + sq_error K x y).
Proof.
rewrite /stream_error size_rcons big_ord_recr /= subSn // subnn expr1 nth_rcons ltnn eqxx /=.
rewrite mulrDr; congr (_ + _); rewrite mulr_sumr; apply: eq_bigr=> i _.
by rewrite nth_rcons ltn_ord subSn 1?ltnW // exprS mulrA.
Qed.

Lemma inv_stream w st J ps :
  0 < w -> inv st J -> 
  inv (foldl (online_update w) st ps) (fun K => w ^+ size ps * J K + stream_error w ps K).
Proof.
move=> Hw Hi; elim/last_ind: ps=> [|ps [x y] IH].
  move: Hi=> [S [H1 H2 H3 H4 H5]]; exists S; split=> // K.
  by rewrite /= expr0 !mul1r /stream_error !big_ord0 !addr0.
rewrite foldl_rcons; have [S [H1 H2 H3 H4 H5]] := inv_step x y Hw IH.
exists S; split=> // K; rewrite !stream_error_rcons size_rcons exprS -!mulrA -!mulrDr !addrA.
exact: H5.
Qed.

Lemma inv_basic (A0 : 'M[R]_n) eps : 0 < eps ->
  inv (basic_initialize A0 eps) (fun K => eps * sq_norm (K - A0)).
Proof.
move=> He; have He0 : eps != 0 by rewrite gt_eqF.
exists (eps *: 1%:M); split.
- by rewrite linearZ /= trmx1.
- move=> v Hv; rewrite -scalemxAr mulmx1 -scalemxAl mxE; apply: mulr_gt0=> //.
  have Hsum : (v^T *m v) 0 0 = \sum_i v i 0 ^+ 2 by rewrite mxE; apply: eq_bigr=> i _; rewrite mxE expr2.
  rewrite lt0r Hsum sumr_ge0 ?andbT; last by move=> i _; apply: sqr_ge0.
  apply: contra Hv; rewrite psumr_eq0; last by move=> i _; apply: sqr_ge0.
  move/allP=> H; apply/eqP/matrixP=> i j; rewrite [j]ord1 [RHS]mxE.
  by have := H i; rewrite mem_index_enum sqrf_eq0=> /(_ isT) /eqP.
- by rewrite /= -scalemxAl -scalemxAr mulmx1 scalerA mul1r mulVf // scale1r.
- by rewrite /= linearZ /= trmx1.
- move=> K /=; rewrite !sq_normE subrr /quad !mul0mx mxtrace0 mulr0 add0r mulmx1.
  by rewrite -scalemxAr mulmx1 -scalemxAl mxtraceZ.
Qed.

Lemma inv_minimal st J : inv st J ->
  forall K, J (oA st) <= J K /\ (J K = J (oA st) -> K = oA st).
Proof.
move=> [S [_ HP _ _ HJ]] K; rewrite [J K]HJ; split; first by rewrite ler_addl quad_ge0.
rewrite -[X in _ = X]addr0 => /addrI /(quad_eq0 HP) /eqP; rewrite subr_eq0=> /eqP //.
Qed.

(** batch initialisation *)
Section Batch.
Variable lstsq : lstsq_t R.
Variable pinv : forall s n : nat, 'M[R]_(s, n) -> 'M[R]_(n, s).
Hypothesis Hl : solves_consistent lstsq.
Hypothesis Hp : pinv_least_squares pinv.

Definition rows1 (ps : seq (pair_t R n)) : 'M[R]_(size ps, n) :=
  \matrix_(i, j) (nth (0, 0) ps i).1 j 0.
Definition rows2 (ps : seq (pair_t R n)) : 'M[R]_(size ps, n) :=
  \matrix_(i, j) (nth (0, 0) ps i).2 j 0.

Lemma gramS s (X : 'M[R]_(s, n)) v : (v^T *m (X^T *m X) *m v) 0 0 = \sum_i ((X *m v) i 0) ^+ 2.
Proof.
have -> : v^T *m (X^T *m X) *m v = (X *m v)^T *m (X *m v) by rewrite trmx_mul !mulmxA.
by rewrite mxE; apply: eq_bigr=> i _; rewrite mxE expr2.
Qed.

Lemma inv_batch (w sw : R) ps : 0 < sw -> w = sw ^+ 2 -> stream_spanning ps ->
  inv (batch_initialize w lstsq pinv sw (rows1 ps) (rows2 ps)) (stream_error w ps).
Proof.
move=> Hsw Ew Hspan.
have Hw : 0 < w by rewrite Ew exprn_gt0.
set s := size ps; set wt := \row_(i < s) sw ^+ (s.-1 - i).
set X := diagmat_dot_mat wt (rows1 ps); set Y := diagmat_dot_mat wt (rows2 ps).
have Hpd : posdef (X^T *m X).
  move=> v Hv; rewrite gramS lt0r sumr_ge0 ?andbT; last by move=> i _; apply: sqr_ge0.
  apply: contra Hv; rewrite psumr_eq0; last by move=> i _; apply: sqr_ge0.
  move/allP=> H; apply/eqP/Hspan=> xy /(nthP (0, 0)) [i Hi <-].
  have := H (Ordinal Hi); rewrite mem_index_enum sqrf_eq0 => /(_ isT).
  rewrite /X diagmat_dot_matE -mulmxA mul_diag_mx !mxE mulf_eq0 expf_eq0 (gt_eqF Hsw) andbF /=.
  by move/eqP=> E; rewrite -[RHS]E; apply: eq_bigr=> k _; rewrite !mxE.
have HXt : (X^T *m X)^T = X^T *m X by rewrite trmx_mul trmxK.
have HXu : X^T *m X \in unitmx.
  rewrite -row_free_unit -kermx_eq0; apply: contraT=> Hk.
  have Hn : (nz_row (kermx (X^T *m X)))^T != 0.
    by apply: contra Hk=> /eqP H; rewrite -nz_row_eq0 -[nz_row _]trmxK H trmx0.
  have := Hpd _ Hn; rewrite trmxK.
  have /sub_kermxP -> := nz_row_sub (kermx (X^T *m X)).
  by rewrite mul0mx mxE ltxx.
have HL : (X^T *m X) *m lstsq (X^T *m X) 1%:M = 1%:M.
  by apply: Hl (invmx (X^T *m X)) _; rewrite mulmxV.
have HLt : (lstsq (X^T *m X) 1%:M)^T = lstsq (X^T *m X) 1%:M.
  have E : lstsq (X^T *m X) 1%:M = invmx (X^T *m X).
    by rewrite -[RHS]mulmx1 -[in RHS]HL mulmxA mulVmx // mul1mx.
  by rewrite E trmx_inv HXt.
have EJ K : stream_error w ps K = w * one_step_error (const_mx 1) X Y K.
  rewrite /stream_error /one_step_error mulr_sumr; apply: eq_bigr=> i _.
  rewrite mxE mul1r /sq_error.
  have -> : (size ps - i = (s.-1 - i).+1)%N.
    rewrite -subn1 -subnDA addnC subnDA subn1 prednK // subn_gt0; exact: ltn_ord.
  rewrite exprS -mulrA; congr (_ * _); rewrite mulr_sumr; apply: eq_bigr=> j _.
  rewrite /X /Y /diagmat_dot_mat !mxE.
  have -> : \sum_k K j k * (\matrix_(i0, j0) (rows1 ps i0 j0 * wt 0 i0)) i k
            = sw ^+ (s.-1 - i) * \sum_k K j k * (nth (0, 0) ps i).1 k 0.
    by rewrite mulr_sumr; apply: eq_bigr=> k _; rewrite !mxE mulrA mulrC.
  by rewrite [_ * sw ^+ _]mulrC -mulrBr exprMn Ew exprAC.
exists (w *: (X^T *m X)); split.
- by rewrite linearZ /= HXt.
- by move=> v Hv; rewrite -scalemxAr -scalemxAl mxE; apply: mulr_gt0=> //; apply: Hpd.
- rewrite /= -/X -scalemxAl -scalemxAr scalerA mulVf ?gt_eqF // scale1r.
  exact: mulmx1C HL.
- by rewrite /= linearZ /= HLt.
- move=> K; rewrite !EJ /= -/X -/Y.
  have Hn : X^T *m (diag_mx (const_mx 1) *m X) *m ((pinv X *m Y)^T)^T = X^T *m (diag_mx (const_mx 1) *m Y).
    by rewrite diag_const_mx !mul1mx trmxK mulmxA Hp.
  rewrite (normal_eq_minimal K _ Hn); last by move=> i; rewrite mxE ler01.
  rewrite mulrDr; congr (_ + _).
  rewrite /quad -scalemxAr -scalemxAl mxtraceZ; congr (_ * _).
  set D := K - _; have -> : (pinv X *m Y)^T - K = - D by rewrite opprB.
  rewrite linearN /= mulmxN.
  have -> : D *m (X^T *m X) *m D^T = (X *m D^T)^T *m (X *m D^T) by rewrite trmx_mul trmxK !mulmxA.
  rewrite mxtrace_mulC /wsq /mxtrace; apply: eq_bigr=> i _; rewrite mxE mul1r [RHS]mxE.
  by apply: eq_bigr=> j _; rewrite !mxE sqrrN expr2.
Qed.


Lemma partial_fits_false (w : R) A0 eps sw bs : bs != [::] ->
  partial_fits w lstsq pinv A0 eps sw false bs
  = Some (foldl (online_update w) (basic_initialize A0 eps) (flatten bs)).
Proof.
elim/last_ind: bs=> [//|bs b IH] _; rewrite /partial_fits foldl_rcons -/(partial_fits _ _ _ _ _ _ _ _).
rewrite -cats1 flatten_cat /= cats0 foldl_cat.
case: (eqVneq bs [::])=> [->|H] //=.
by have := IH H; rewrite /partial_fits => ->.
Qed.

Lemma partial_fits_true (w : R) A0 eps sw b bs :
  partial_fits w lstsq pinv A0 eps sw true (b :: bs)
  = Some (foldl (online_update w) (batch_initialize w lstsq pinv sw (rows1 b) (rows2 b)) (flatten bs)).
Proof.
rewrite /partial_fits /= -/(rows1 b) -/(rows2 b).
elim: bs (batch_initialize _ _ _ _ _ _)=> [//|c bs IH] st /=.
by rewrite foldl_cat IH.
Qed.

Lemma timestep_foldl (w : R) (st : online R n) ps :
  otimestep (foldl (online_update w) st ps) = (otimestep st + size ps)%N.
Proof.
elim: ps st=> [|[x y] ps IH] st /=; first by rewrite addn0.
by rewrite IH /= addSnnS.
Qed.

Lemma stream_error_cat w ps qs K :
  stream_error w (ps ++ qs) K = w ^+ size qs * stream_error w ps K + stream_error w qs K.
Proof.
elim/last_ind: qs=> [|qs [x y] IH].
  by rewrite cats0 expr0 mul1r /stream_error [X in _ + X]big_ord0 addr0.
by rewrite -rcons_cat !stream_error_rcons IH size_rcons exprS -!mulrA -!mulrDr addrA.
Qed.

Lemma online_basic (w eps sw : R) A0 bs : 0 < w -> 0 < eps -> bs != [::] ->
  exists st, partial_fits w lstsq pinv A0 eps sw false bs = Some st
    /\ (otimestep st = size (flatten bs))
    /\ forall K, stream_cost w eps A0 (flatten bs) (oA st) <= stream_cost w eps A0 (flatten bs) K
        /\ (stream_cost w eps A0 (flatten bs) K = stream_cost w eps A0 (flatten bs) (oA st) -> K = oA st).
Proof.
move=> Hw He Hb; rewrite partial_fits_false //; eexists; split; first reflexivity.
split; first by rewrite timestep_foldl.
exact: inv_minimal (inv_stream (flatten bs) Hw (inv_basic A0 He)).
Qed.

Lemma online_batch (w eps sw : R) A0 b bs : 0 < sw -> w = sw ^+ 2 -> stream_spanning b ->
  exists st, partial_fits w lstsq pinv A0 eps sw true (b :: bs) = Some st
    /\ (otimestep st = size (flatten (b :: bs)))
    /\ forall K, stream_error w (flatten (b :: bs)) (oA st) <= stream_error w (flatten (b :: bs)) K
        /\ (stream_error w (flatten (b :: bs)) K = stream_error w (flatten (b :: bs)) (oA st) -> K = oA st).
Proof.
move=> Hs Ew Hsp; rewrite partial_fits_true; eexists; split; first reflexivity.
split; first by rewrite timestep_foldl /= size_cat.
have Hw : 0 < w by rewrite Ew exprn_gt0.
move=> K; rewrite /= !stream_error_cat.
exact: (inv_minimal (inv_stream (flatten bs) Hw (inv_batch Hs Ew Hsp))).
Qed.

End Batch.
End Online.

(** an instance of [pinv] *)
Definition lsq_pinv (R : realFieldType) s n (X : 'M[R]_(s, n)) : 'M[R]_(n, s) :=
  pinv_lstsq (X^T *m X) X^T.

Lemma lsq_pinv_ok (R : realFieldType) : pinv_least_squares (@lsq_pinv R).
Proof.
move=> s n X.
have [] := @gram_consistent R s n s (const_mx 1) X 1%:M.
  by move=> i; rewrite mxE ler01.
rewrite diag_const_mx !mul1mx mulmx1 => Z HZ.
exact: (pinv_lstsq_ok HZ).
Qed.
