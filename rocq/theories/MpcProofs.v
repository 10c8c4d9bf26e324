(** * Proofs about KMPC *)

From mathcomp Require Import all_ssreflect all_algebra.
Import Order.Theory GRing.Theory Num.Theory.
From Verif Require Import RingTac LinModel LinSpec LinProofs MpcModel MpcSpec.
Set Implicit Arguments.
Unset Strict Implicit.
Unset Printing Implicit Defensive.
Local Open Scope ring_scope.

Section Proofs.
Variable R : realFieldType.
Add Ring RRing : (rt_theory R).

Lemma mxpowSr n (A : 'M[R]_n) k : mxpow A k.+1 = mxpow A k *m A.
Proof. by elim: k=> [|k IH] /=; rewrite ?mulmx1 ?mul1mx // -mulmxA -IH. Qed.

Lemma unindexK a b (i : 'I_a) (j : 'I_b) : unindex (mxvec_index i j) = (i, j).
Proof. by rewrite /unindex /mxvec_index cast_ordK enum_rankK. Qed.

Lemma sum_flat a b (f : 'I_(a * b) -> R) : \sum_r f r = \sum_i \sum_j f (mxvec_index i j).
Proof.
rewrite pair_big /= (reindex (uncurry (@mxvec_index a b))); last exact: curry_mxvec_bij.
by apply: eq_big=> [[i j]|[i j] _] //=.
Qed.

Lemma mxsubE d (a b : 'cV[R]_d) r : (a - b) r 0 = a r 0 - b r 0.
Proof. by rewrite !mxE. Qed.
Lemma mxaddE d (a b : 'cV[R]_d) r : (a + b) r 0 = a r 0 + b r 0.
Proof. by rewrite mxE. Qed.
Lemma mxoppE d (a : 'cV[R]_d) r : (- a) r 0 = - a r 0.
Proof. by rewrite mxE. Qed.
Lemma sym11 (M : 'M[R]_1) : M 0 0 = M^T 0 0.
Proof. by rewrite mxE. Qed.
Lemma flatE a b (M : 'M[R]_(a, b)) i j : (mxvec M)^T (mxvec_index i j) 0 = M i j.
Proof. by rewrite mxE mxvecE. Qed.
Lemma flatF a b (f : 'I_a -> 'I_b -> R) i j : (mxvec (\matrix_(i, j) f i j))^T (mxvec_index i j) 0 = f i j.
Proof. by rewrite flatE mxE. Qed.

Variables n q m N : nat.
Variables (A : 'M[R]_n) (B : 'M[R]_(n, m)) (C : 'M[R]_(q, n)).

Lemma set_AbE cnt i L Ab k :
  set_Ab A C cnt i L Ab k
  = if (i <= k < i + cnt)%N then C *m (mxpow A (k - i) *m L) else Ab k.
Proof.
elim: cnt i L Ab=> [|cnt IH] i L Ab /=.
  by rewrite addn0; case: ltngtP.
rewrite IH /upd addSnnS; case: (ltngtP i k)=> [Hik|Hki|<-] /=.
- case: ifP=> // Hk; have -> : (k - i = (k - i.+1).+1)%N by rewrite subnS prednK // subn_gt0.
  by rewrite mxpowSr -!mulmxA.
- by [].
- by rewrite subnn mul1mx -addSnnS leq_addr.
Qed.

Lemma Ab_blocksE i : (i < N)%N -> Ab_blocks N A C i = C *m mxpow A i.+1.
Proof. by move=> Hi; rewrite /Ab_blocks set_AbE leq0n add0n Hi subn0 -mxpowSr. Qed.

Lemma set_diagonalE cnt k j M (Bb : nat -> nat -> 'M[R]_(q, m)) r c :
  set_diagonal cnt k j M Bb r c
  = if (j <= r < j + cnt)%N && (c == k + (r - j))%N then M else Bb r c.
Proof.
elim: cnt k j Bb=> [|cnt IH] k j Bb /=.
  by rewrite addn0; case: ltngtP.
rewrite IH /upd addSnnS; case: (ltngtP j r)=> [Hjr|Hrj|<-] /=.
- have -> : (k + (r - j) = k.+1 + (r - j.+1))%N by rewrite addSnnS subnS prednK // subn_gt0.
  by [].
- by [].
- by rewrite subnn addn0 -addSnnS leq_addr /=; case: (c == k).
Qed.

Lemma set_BbE cnt i L (Bb : nat -> nat -> 'M[R]_(q, m)) r c :
  set_Bb N A C cnt i L Bb r c
  = if [&& c <= r, r < N & i <= r - c < i + cnt]%N then C *m (mxpow A (r - c - i) *m L) else Bb r c.
Proof.
elim: cnt i L Bb=> [|cnt IH] i L Bb /=.
  by rewrite addn0; case: (ltngtP i (r - c)); rewrite ?andbF.
rewrite IH set_diagonalE add0n addSnnS.
case: (leqP c r)=> Hcr /=; last first.
  case: ifP=> // /andP [/andP [H1 H2] /eqP Ec].
  by move: Hcr; rewrite Ec ltnNge leq_subr.
case: (ltnP r N)=> HrN /=; last first.
  case: ifP=> // /andP [/andP [H1 H2] _].
  case: (leqP i N)=> HiN; first by move: H2; rewrite subnKC // ltnNge HrN.
  by move: H2; rewrite (eqP (ltnW HiN : (N - i == 0)%N)) addn0 ltnNge H1.
case: (ltngtP i (r - c))=> [Hi|Hi|Hi] /=.
- case: ifP=> H.
    have -> : (r - c - i = (r - c - i.+1).+1)%N by rewrite subnS prednK // subn_gt0.
    by rewrite mxpowSr -!mulmxA.
  case: ifP=> // /andP [/andP [H1 H2] /eqP Ec].
  by move: Hi; rewrite Ec subKn // ltnn.
- case: ifP=> // /andP [/andP [H1 H2] /eqP Ec].
  by move: Hi; rewrite Ec subKn // ltnn.
- rewrite -Hi subnn mul1mx -addSnnS leq_addr /=.
  have Hir : (i <= r)%N by rewrite Hi leq_subr.
  rewrite Hir subnKC ?HrN /=; last by apply: leq_trans Hir (ltnW HrN).
  by rewrite Hi subKn // eqxx.
Qed.

Lemma Bb_blocksE r c : (r < N)%N ->
  Bb_blocks N A B C r c = if (c <= r)%N then C *m (mxpow A (r - c) *m B) else 0.
Proof.
move=> Hr; rewrite /Bb_blocks set_BbE Hr /= add0n (leq_ltn_trans (leq_subr _ _) Hr) subn0 andbT.
by [].
Qed.

Lemma ctrajectoryE (z : 'cV[R]_n) (u : nat -> 'cV[R]_m) k :
  ctrajectory A B z u k = mxpow A k *m z + \sum_(c < k) mxpow A (k.-1 - c) *m B *m u c.
Proof.
elim: k=> [|k IH] /=; first by rewrite big_ord0 addr0 mul1mx.
rewrite IH mulmxDr mulmxA -addrA; congr (_ + _).
rewrite big_ord_recr /= subnn mul1mx; congr (_ + _).
rewrite mulmx_sumr; apply: eq_bigr=> c _.
have -> : (k - c = (k.-1 - c).+1)%N.
  by case: k c {IH}=> [[]//|k] c /=; rewrite subSn // -ltnS.
by rewrite /= -!mulmxA.
Qed.

Lemma evolution (z0 : 'cV[R]_n) (U : 'M[R]_(N, m)) (i : 'I_N) (j : 'I_q) :
  (evolution_A N A C *m z0 + evolution_B N A B C *m (mxvec U)^T) (mxvec_index i j) 0
  = output A B C z0 U i.+1 j 0.
Proof.
rewrite /output ctrajectoryE mulmxDr [LHS]mxE [RHS]mxE; congr (_ + _).
  rewrite mulmxA [LHS]mxE [RHS]mxE; apply: eq_bigr=> k _.
  by rewrite mxE unindexK /= Ab_blocksE.
rewrite [LHS]mxE mulmx_sumr summxE sum_flat.
have -> : \sum_(i0 < N) \sum_(j0 < m)
    evolution_B N A B C (mxvec_index i j) (mxvec_index i0 j0) * (mxvec U)^T (mxvec_index i0 j0) 0
  = \sum_(i0 < N) (if (i0 <= i)%N then (C *m (mxpow A (i - i0) *m B) *m (row i0 U)^T) j 0 else 0).
  apply: eq_bigr=> c _; case: ifP=> Hc.
    rewrite [RHS]mxE; apply: eq_bigr=> k _.
    rewrite [evolution_B _ _ _ _ _ _]mxE !unindexK /= Bb_blocksE // Hc.
    by rewrite [(mxvec U)^T _ _]mxE [(row _ _)^T _ _]mxE [row _ _ _ _]mxE mxvecE.
  apply: big1=> k _.
  by rewrite [evolution_B _ _ _ _ _ _]mxE !unindexK /= Bb_blocksE // Hc mxE mul0r.
rewrite -big_mkcond /=.
rewrite (big_ord_widen_cond N (fun=> true) (fun c => (C *m (mxpow A (i.+1.-1 - c) *m B *m input_at U c)) j 0)) //=.
apply: eq_big=> [c|c Hc]; first by rewrite ltnS.
by rewrite /input_at valK -!mulmxA.
Qed.

Lemma diag_quad d (w : 'rV[R]_d) (x y : 'cV[R]_d) : (x^T *m diag_mx w *m y) 0 0 = \sum_r w 0 r * (x r 0 * y r 0).
Proof.
rewrite mxE; apply: eq_bigr=> r _; rewrite mul_mx_diag !mxE mulrAC mulrA mulrC mulrA.
by rewrite [w 0 r * _]mulrC; mring R.
Qed.

Lemma cost_to_arrayE k (c : cost_t R) : valid_cost k c -> cost_to_array k c = Some (cost_vector k c).
Proof.
case: c=> [x|v] /=; first by rewrite leNgt=> /negbTE ->.
move=> /andP [/eqP -> H]; rewrite eqxx /=; case: ifP=> // /hasP [x Hx].
by rewrite ltNge (allP H _ Hx).
Qed.

Lemma cost_all_zeroE k (c : cost_t R) : valid_cost k c -> k != 0%N -> cost_all_zero c = (cost_vector k c == 0).
Proof.
case: k=> [//|k]; case: c=> [x|v] /=.
  move=> _ _; apply/eqP/eqP=> [->|]; first by apply/rowP=> j; rewrite !mxE.
  by move/rowP/(_ 0); rewrite !mxE.
move=> /andP [/eqP Hs _] _; apply/allP/eqP=> [H|/rowP H x Hx].
  by apply/rowP=> j; rewrite !mxE; apply/eqP/H/mem_nth; rewrite Hs.
have Hi := Hx; rewrite -index_mem Hs in Hi; have := H (Ordinal Hi).
by rewrite !mxE /= nth_index // => ->.
Qed.

Definition running_diag (vr vt : 'rV[R]_q) : 'rV[R]_(N * q) :=
  mxvec (\matrix_(i < N, j < q) (if i == N.-1 :> nat then vt 0 j else vr 0 j)).
Definition input_diag (vi : 'rV[R]_m) : 'rV[R]_(N * m) := mxvec (\matrix_(i < N, j < m) vi 0 j).

Lemma cost_matricesE running terminal input :
  valid_cost q running -> valid_cost m input -> (forall t, terminal = Some t -> valid_cost q t) ->
  cost_matrices q m N running terminal input
  = Some (running_diag (cost_vector q running) (terminal_vector q running terminal), input_diag (cost_vector m input)).
Proof.
move=> Hr Hi Ht; rewrite /cost_matrices /terminal_vector.
case: terminal Ht=> [t|] Ht; last by rewrite !cost_to_arrayE.
have Hv := Ht t erefl.
case: (posnP q) Hr Ht Hv => [E|Hq] Hr Ht Hv.
  have E0 : forall (x y : 'rV[R]_q), x = y by move=> x y; apply/rowP=> -[j Hj]; exfalso; rewrite E in Hj.
  rewrite (cost_to_arrayE Hr) (cost_to_arrayE Hi).
  case: (cost_all_zero t); rewrite cost_to_arrayE //; congr (Some (_, _)); congr (running_diag _ _); exact: E0.
rewrite (cost_all_zeroE Hv) -?lt0n //.
by case: ifP=> _; rewrite !cost_to_arrayE.
Qed.

Lemma tracking_costE vr vt vi (z0 : 'cV[R]_n) (ref : 'M[R]_(N, q)) (U : 'M[R]_(N, m)) :
  let x := evolution_A N A C *m z0 + evolution_B N A B C *m (mxvec U)^T - (mxvec ref)^T in
  tracking_cost A B C vr vt vi z0 ref U
  = (x^T *m diag_mx (running_diag vr vt) *m x) 0 0
    + (((mxvec U)^T)^T *m diag_mx (input_diag vi) *m (mxvec U)^T) 0 0.
Proof.
move=> x; rewrite !diag_quad !sum_flat /tracking_cost; congr (_ + _).
  apply: eq_bigr=> k _; apply: eq_bigr=> j _.
  have -> : x (mxvec_index k j) 0 = output A B C z0 U k.+1 j 0 - ref k j.
    by rewrite -evolution /x mxsubE flatE.
  rewrite /running_diag mxvecE mxE expr2; congr (_ * _).
  have -> // : (k.+1 == N) = (k == N.-1 :> nat) by case: (N) k=> [[]|].
apply: eq_bigr=> k _; apply: eq_bigr=> j _.
by rewrite /input_diag mxvecE mxE flatE expr2.
Qed.

Lemma objective running terminal input sb ib (z0 : 'cV[R]_n) (ref : 'M[R]_(N, q)) p :
  valid_cost q running -> valid_cost m input -> (forall t, terminal = Some t -> valid_cost q t) ->
  control_qp A B C running terminal input sb ib z0 ref = Some p ->
  forall U, qp_objective p (mxvec U)^T
  = tracking_cost A B C (cost_vector q running) (terminal_vector q running terminal) (cost_vector m input) z0 ref U
    - tracking_cost A B C (cost_vector q running) (terminal_vector q running terminal) (cost_vector m input) z0 ref 0.
Proof.
move=> Hr Hi Ht; rewrite /control_qp cost_matricesE // => -[<-] U.
rewrite !tracking_costE /qp_objective /=.
set Q := diag_mx _; set Rc := diag_mx (input_diag _).
set Ab := evolution_A N A C; set Bb := evolution_B N A B C; set r := (mxvec ref)^T; set u := (mxvec U)^T.
have HQt : Q^T = Q by rewrite tr_diag_mx.
have E0 : (mxvec (0 : 'M[R]_(N, m)))^T = 0 by rewrite !linear0.
rewrite E0 !mulmx0 addr0 [X in _ - (_ + X)]mxE addr0.
set e := Ab *m z0 - r.
have -> : Ab *m z0 + Bb *m u - r = e + Bb *m u by rewrite /e addrAC.
have E1 : 2%:R *: (Bb^T *m Q) *m Ab *m z0 - 2%:R *: (Bb^T *m Q) *m r = 2%:R *: (Bb^T *m Q *m e).
  by rewrite /e mulmxBr scalerBr -!scalemxAl mulmxA.
rewrite E1; clear E1; clearbody e.
have E2 : (u^T *m (2%:R *: (Bb^T *m Q) *m Bb + 2%:R *: Rc) *m u) 0 0
          = 2%:R * (((Bb *m u)^T *m Q *m (Bb *m u)) 0 0 + (u^T *m Rc *m u) 0 0).
  rewrite -scalemxAl -scalerDr -scalemxAr -scalemxAl mxE; congr (_ * _).
  by rewrite mulmxDr mulmxDl [LHS]mxE trmx_mul !mulmxA.
rewrite E2 mulrA mulVf ?pnatr_eq0 // mul1r.
have E3 : ((2%:R *: (Bb^T *m Q *m e))^T *m u) 0 0 = 2%:R * (e^T *m Q *m (Bb *m u)) 0 0.
  by rewrite linearZ /= -scalemxAl mxE !trmx_mul trmxK HQt !mulmxA.
rewrite E3.
have E4 : ((e + Bb *m u)^T *m Q *m (e + Bb *m u)) 0 0
  = (e^T *m Q *m e) 0 0 + ((Bb *m u)^T *m Q *m (Bb *m u)) 0 0 + 2%:R * (e^T *m Q *m (Bb *m u)) 0 0.
  rewrite [(e + _)^T]linearD /= !mulmxDl !mulmxDr !mxaddE.
  have -> : ((Bb *m u)^T *m Q *m e) 0 0 = (e^T *m Q *m (Bb *m u)) 0 0.
    by rewrite [LHS]sym11 !trmx_mul !trmxK HQt !mulmxA.
  by mring R.
rewrite E4; by mring R.
Qed.

Lemma feasible running terminal input sb ib (z0 : 'cV[R]_n) (ref : 'M[R]_(N, q)) p :
  control_qp A B C running terminal input sb ib z0 ref = Some p ->
  forall U, qp_feasible p (mxvec U)^T <-> respects_bounds A B C sb ib z0 U.
Proof.
rewrite /control_qp; case: (cost_matrices _ _ _ _ _ _)=> [[Q Rc]|//] [<-] U; split.
- move=> [H1 H2]; split=> [b Eb k j|b Eb k j].
    subst sb; have H := H1 _ _ erefl.
    have := H (lshift _ (mxvec_index k j)); have := H (rshift _ (mxvec_index k j)).
    rewrite mul_col_mx !mxaddE !(col_mxEu, col_mxEd) !mulNmx !mxoppE ?flatF ?flatE -evolution mxaddE.
    by rewrite ler_oppl opprD opprK ler_subl_addl ler_subr_addl => -> ->.
  by subst ib; have := H2 _ _ erefl (mxvec_index k j); rewrite ?flatF ?flatE.
- move=> [H1 H2]; split.
    move=> G h; case: sb H1=> [b|//] H1 /= [<- <-] r; rewrite mul_col_mx mxaddE.
    have H := H1 _ erefl.
    case: (splitP r)=> r' Er.
      have -> : r = lshift _ r' by apply: val_inj.
      rewrite !col_mxEu; case/mxvec_indexP: r' {Er}=> k j; have /andP [_] := H k j.
      by rewrite -evolution mxaddE mxoppE flatF ler_subr_addl.
    have -> : r = rshift _ r' by apply: val_inj.
    rewrite !col_mxEd; case/mxvec_indexP: r' {Er}=> k j; have /andP [+ _] := H k j.
    by rewrite -evolution mxaddE mulNmx !mxoppE flatF ler_oppl opprD opprK ler_subl_addl.
  move=> lb ub; case: ib H2=> [b|//] H2 /= [<- <-] r; case/mxvec_indexP: r=> k j.
  rewrite ?flatF ?flatE; exact: H2.
Qed.

End Proofs.
