(** * Proofs about the jointly smooth functions. *)

From Coq Require Import Permutation.
From mathcomp Require Import all_ssreflect fingroup perm all_algebra.
From Verif Require Import RingTac FieldTac Np LinModel KernModel KernSpec EmbModel EmbSpec EmbProofs EmbExample JsfModel JsfSpec.
Import Order.Theory GRing.Theory Num.Theory.
Set Implicit Arguments.
Unset Strict Implicit.
Unset Printing Implicit Defensive.
Local Open Scope ring_scope.

Section Proofs.
Variable R : rcfType.
Add Ring RRing : (rt_theory R).
Add Field RField : (ft_theory R).

(** ** inner products *)

Definition dot n (x y : 'cV[R]_n) : R := (x^T *m y) 0 0.

Lemma dotE n (x y : 'cV[R]_n) : dot x y = \sum_i x i 0 * y i 0.
Proof. by rewrite /dot mxE; apply: eq_bigr => i _; rewrite mxE. Qed.

Lemma sq_dot n (x : 'cV[R]_n) : sq_length x = dot x x.
Proof. by rewrite dotE; apply: eq_bigr => i _; rewrite expr2. Qed.

Lemma dotC n (x y : 'cV[R]_n) : dot x y = dot y x.
Proof. by rewrite !dotE; apply: eq_bigr => i _; rewrite mulrC. Qed.

Lemma dotDl n (x y z : 'cV[R]_n) : dot (x + y) z = dot x z + dot y z.
Proof. by rewrite !dotE -big_split; apply: eq_bigr => i _; rewrite mxE mulrDl. Qed.

Lemma dotDr n (x y z : 'cV[R]_n) : dot z (x + y) = dot z x + dot z y.
Proof. by rewrite dotC dotDl !(dotC z). Qed.

Lemma dotZl n c (x y : 'cV[R]_n) : dot (c *: x) y = c * dot x y.
Proof. by rewrite !dotE mulr_sumr; apply: eq_bigr => i _; rewrite mxE mulrA. Qed.

Lemma dotZr n c (x y : 'cV[R]_n) : dot x (c *: y) = c * dot x y.
Proof. by rewrite dotC dotZl dotC. Qed.

Lemma dot_mull m n (A : 'M[R]_(m, n)) (x : 'cV[R]_n) (y : 'cV[R]_m) : dot (A *m x) y = dot x (A^T *m y).
Proof. by rewrite /dot trmx_mul -mulmxA. Qed.

Lemma dot_mulr m n (A : 'M[R]_(m, n)) (x : 'cV[R]_n) (y : 'cV[R]_m) : dot y (A *m x) = dot (A^T *m y) x.
Proof. by rewrite dotC dot_mull dotC. Qed.

Lemma dot0r n (x : 'cV[R]_n) : dot x 0 = 0.
Proof. by rewrite /dot mulmx0 mxE. Qed.

Lemma sq_ge0 n (x : 'cV[R]_n) : 0 <= sq_length x.
Proof. by apply: sumr_ge0 => i _; rewrite sqr_ge0. Qed.

Lemma sq_eq0 n (x : 'cV[R]_n) : sq_length x = 0 -> x = 0.
Proof.
move/eqP; rewrite psumr_eq0; last by move=> i _; exact: sqr_ge0.
move/allP => H; apply/matrixP => i j; rewrite [j]ord1 mxE.
by have := H i (mem_index_enum i); rewrite /= sqrf_eq0 => /eqP.
Qed.

Lemma seen_sq s p (W : 'M[R]_(s, p)) x : seen W x = sq_length (W^T *m x).
Proof.
apply: eq_bigr => j _; congr (_ ^+ 2); rewrite mxE.
by apply: eq_bigr => l _; rewrite mxE.
Qed.

Lemma seen_dot s p (W : 'M[R]_(s, p)) x : seen W x = dot x (W *m (W^T *m x)).
Proof. by rewrite seen_sq sq_dot dot_mull trmxK. Qed.

Definition proj s (ws : seq (split R s)) (x : 'cV[R]_s) : 'cV[R]_s :=
  \sum_(w <- ws) evecs w *m ((evecs w)^T *m x).

Lemma energy_dot s (ws : seq (split R s)) x : energy ws x = dot x (proj ws x).
Proof.
rewrite /energy /proj; elim: ws => [|w ws IH]; first by rewrite !big_nil dot0r.
by rewrite !big_cons dotDr seen_dot IH.
Qed.

Lemma entry_col m n (A : 'M[R]_(m, n)) i j : A i j = (col j A) i 0.
Proof. by rewrite mxE. Qed.

Lemma col_mul m n k (A : 'M[R]_(m, n)) (B : 'M[R]_(n, k)) j : col j (A *m B) = A *m col j B.
Proof. by rewrite !colE mulmxA. Qed.

Lemma col_diag m k (F : 'M[R]_(m, k)) (e : 'rV[R]_k) j : col j (F *m diag_mx e) = e 0 j *: col j F.
Proof. by rewrite mul_mx_diag; apply/matrixP => a b; rewrite !mxE mulrC. Qed.

Lemma proj_mx s (ws : seq (split R s)) x : proj ws x = (\sum_(w <- ws) evecs w *m (evecs w)^T) *m x.
Proof. by rewrite mulmx_suml; apply: eq_bigr => w _; rewrite mulmxA. Qed.

Lemma proj_lin s (ws : seq (split R s)) k (F : 'M[R]_(s, k)) (e : 'rV[R]_k) (c : 'cV[R]_k) :
  (forall j, proj ws (col j F) = e 0 j *: col j F) -> proj ws (F *m c) = F *m (diag_mx e *m c).
Proof.
move=> H; rewrite proj_mx !mulmxA; congr (_ *m c); apply/matrixP => i j.
by rewrite entry_col [RHS]entry_col col_mul -proj_mx H col_diag.
Qed.

(** ** Bessel *)
Lemma bessel s p (W : 'M[R]_(s, p)) x : W^T *m W = 1%:M ->
  sq_length (x - W *m (W^T *m x)) = sq_length x - sq_length (W^T *m x).
Proof.
move=> H; set a := W^T *m x; rewrite !sq_dot.
have -> : x - W *m a = x + (-1) *: (W *m a) by rewrite scaleN1r.
rewrite dotDl !dotDr !dotZl !dotZr.
have -> : dot x (W *m a) = dot a a by rewrite dot_mulr.
have -> : dot (W *m a) x = dot a a by rewrite dot_mull.
have -> : dot (W *m a) (W *m a) = dot a a by rewrite dot_mull mulmxA H mul1mx.
by mring R.
Qed.

Lemma bessel_le s p (W : 'M[R]_(s, p)) x : W^T *m W = 1%:M -> sq_length (W^T *m x) <= sq_length x.
Proof. by move=> H; rewrite -subr_ge0 -(bessel _ H) sq_ge0. Qed.

(** ** A bound of the energy *)
Lemma energy_bound s (ws : seq (split R s)) x c : 0 < c ->
  sq_length (proj ws x) <= c * energy ws x -> energy ws x <= c * sq_length x.
Proof.
move=> Hc H; have := sq_ge0 (proj ws x - c *: x); rewrite sq_dot.
have -> : proj ws x - c *: x = proj ws x + (- c) *: x by rewrite scaleNr.
rewrite dotDl !dotDr !dotZl !dotZr (dotC (proj ws x)) -energy_dot -!sq_dot.
move=> H0; have : 0 <= c * (c * sq_length x - energy ws x).
  apply: le_trans H0 _; rewrite -subr_ge0.
  have -> : c * (c * sq_length x - energy ws x) - (sq_length (proj ws x) + - c * energy ws x +
    (- c * energy ws x + - c * (- c * sq_length x))) = c * energy ws x - sq_length (proj ws x) by mring R.
  by rewrite subr_ge0.
by rewrite pmulr_rge0 // subr_ge0.
Qed.

(** ** Two splits *)

Lemma square_orth p r (Q : 'M[R]_(p, r)) : r = p -> Q^T *m Q = 1%:M -> Q *m Q^T = 1%:M.
Proof. by move=> E; move: Q; rewrite E => Q; exact: mulmx1C. Qed.

Lemma svd_full p1 p2 (M : 'M[R]_(p1, p2)) (U : 'M[R]_(p1, minn p1 p2)) (sv : 'rV[R]_(minn p1 p2)) (V : 'M[R]_(p2, minn p1 p2)) :
  SingularTriplets M U sv V -> M = U *m diag_mx sv *m V^T.
Proof.
case=> H1 [H2 [H3 [H4 _]]]; case/orP: (leq_total p1 p2) => H.
  have E : U *m U^T = 1%:M by apply: square_orth H3; exact/minn_idPl.
  have H2' : U^T *m M = diag_mx sv *m V^T by rewrite -[LHS]trmxK trmx_mul trmxK H2 trmx_mul tr_diag_mx.
  by rewrite -mulmxA -H2' mulmxA E mul1mx.
have E : V *m V^T = 1%:M by apply: square_orth H4; exact/minn_idPr.
by rewrite -H1 -mulmxA E mulmx1.
Qed.

Section Two.
Variables (s p1 p2 n : nat) (W1 : 'M[R]_(s, p1)) (W2 : 'M[R]_(s, p2)) (svd : full_svd_t R).
Variables (e1 : 'rV[R]_p1) (e2 : 'rV[R]_p2).
Hypothesis HW1 : Orthonormal W1.
Hypothesis HW2 : Orthonormal W2.
Hypothesis Hsvd : FullSvd svd.
Hypothesis Hdesc : DescendingSvd svd.
Variables (sv : 'rV[R]_(minn p1 p2)) (F : 'M[R]_(s, n_functions n p1 p2)).
Hypothesis HF : jsf_vectors svd n W1 W2 = Some (sv, F).

Let ws := [:: Split W1 e1; Split W2 e2].
Let e := \row_(j < n_functions n p1 p2) (1 + sv 0 (first_block j)).

Lemma two_parts : exists (Q : 'M[R]_(p1, minn p1 p2)) (T : 'M[R]_(p2, minn p1 p2)),
  SingularTriplets (W1^T *m W2) Q sv T /\ Sorted sv /\
  forall j, exists c, 0 < c /\ c ^+ 2 * (2%:R * (1 + sv 0 (first_block j))) = 1 /\
    col j F = c *: (W1 *m col (first_block j) Q + W2 *m col (first_block j) T).
Proof.
case ES: (svd (W1^T *m W2)) => [[[Q s'] T]|]; last by move: HF; rewrite /jsf_vectors ES.
move: HF; rewrite (jsf_form n ES) => -[<- <-]; exists Q, T; split; first exact: Hsvd ES.
split; first exact: Hdesc ES.
move=> j; exists (1 / Num.sqrt 2%:R * (Num.sqrt (1 + s' 0 (first_block j)))^-1).
have Hp : 0 < 1 + s' 0 (first_block j).
  by have [_ [_ [_ [_ H]]]] := Hsvd ES; rewrite ltr_spaddl ?ltr01 // H.
have H2 : 0 < 2%:R :> R by rewrite ltr0n.
split; first by rewrite mulr_gt0 ?divr_gt0 ?invr_gt0 ?sqrtr_gt0 ?ltr01.
split.
  rewrite exprMn exprVn expr_div_n expr1n !sqr_sqrtr ?ltW // mulrACA.
  by rewrite div1r !mulVf ?mulr1 // gt_eqF.
apply/matrixP => i k; rewrite [k]ord1 -entry_col [LHS]mxE [RHS]mxE -[RHS]mulrA; congr (_ * _).
rewrite mul_mx_diag [LHS]mxE mulrC; congr (_ * _); first by rewrite !mxE.
by rewrite !mxE; congr (_ + _); apply: eq_bigr => l _; rewrite !mxE.
Qed.

Lemma two_proj x : proj ws x = W1 *m (W1^T *m x) + W2 *m (W2^T *m x).
Proof. by rewrite /proj /ws !big_cons big_nil addr0. Qed.

Lemma two_energy x : energy ws x = sq_length (W1^T *m x) + sq_length (W2^T *m x).
Proof. by rewrite /energy /ws !big_cons big_nil addr0 !seen_sq. Qed.

Lemma col_seen1 j : exists Q T c, SingularTriplets (W1^T *m W2) Q sv T /\
  c ^+ 2 * (2%:R * (1 + sv 0 (first_block j))) = 1 /\
  col j F = c *: (W1 *m col (first_block j) Q + W2 *m col (first_block j) T) /\
  W1^T *m col j F = (c * (1 + sv 0 (first_block j))) *: col (first_block j) Q /\
  W2^T *m col j F = (c * (1 + sv 0 (first_block j))) *: col (first_block j) T.
Proof.
have [Q [T [HS [_ HC]]]] := two_parts; have [c [_ [Hc2 E]]] := HC j; exists Q, T, c; split=> //; split=> //; split=> //.
have [H1 [H2 _]] := HS; set k := first_block j in E *.
have HT : W1^T *m W2 *m col k T = sv 0 k *: col k Q.
  have := congr1 (col k) H1; by rewrite col_mul col_diag.
have HQ : W2^T *m W1 *m col k Q = sv 0 k *: col k T.
  have := congr1 (col k) H2; by rewrite trmx_mul trmxK col_mul col_diag.
have /orthonormalE O1 := HW1; have /orthonormalE O2 := HW2.
rewrite E -!scalemxAr !mulmxDr !mulmxA O1 O2 !mul1mx HT HQ -!scalerA; split; congr (_ *: _).
  by rewrite scalerDl scale1r.
by rewrite addrC scalerDl scale1r.
Qed.

Lemma unit_col m k (Q : 'M[R]_(m, k)) j : Q^T *m Q = 1%:M -> sq_length (col j Q) = 1.
Proof.
move=> H; have := congr1 (fun M : 'M[R]_k => M j j) H; rewrite !mxE eqxx /= mulr1n => <-.
by apply: eq_bigr => l _; rewrite !mxE expr2.
Qed.

Lemma sq_scale m c (x : 'cV[R]_m) : sq_length (c *: x) = c ^+ 2 * sq_length x.
Proof. by rewrite !sq_dot dotZl dotZr mulrA expr2. Qed.

Lemma two_seen j : sq_length (W1^T *m col j F) = (1 + sv 0 (first_block j)) / 2%:R /\
  sq_length (W2^T *m col j F) = (1 + sv 0 (first_block j)) / 2%:R.
Proof.
have [Q [T [c [[_ [_ [HQ [HT _]]]] [Hc [_ [-> ->]]]]]]] := col_seen1 j.
rewrite !sq_scale (unit_col _ HQ) (unit_col _ HT) mulr1; set a := 1 + _ in Hc *.
have E : (c * a) ^+ 2 = a / 2%:R.
  apply: (@mulIf _ 2%:R); first by rewrite pnatr_eq0.
  rewrite mulfVK ?pnatr_eq0 // exprMn.
  have -> : c ^+ 2 * a ^+ 2 * 2%:R = c ^+ 2 * (2%:R * a) * a by rewrite !expr2; mring R.
  by rewrite Hc mul1r.
by split.
Qed.

Lemma two_bound (j : 'I_(n_functions n p1 p2)) (x : 'cV[R]_s) : (forall i : 'I_(n_functions n p1 p2), (i < j)%N -> \sum_l F l i * x l 0 = 0) ->
  energy ws x <= (1 + sv 0 (first_block j)) * sq_length x.
Proof.
move=> Hx; have [Q [T [HS [Hd HC]]]] := two_parts; have [_ [_ [HQ [HT Hs]]]] := HS.
have Hc : 0 < 1 + sv 0 (first_block j) by rewrite ltr_spaddl ?ltr01.
apply: energy_bound => //; rewrite two_proj two_energy.
set a := W1^T *m x; set b := W2^T *m x; set sj := sv 0 (first_block j) in Hc *.
have /orthonormalE O1 := HW1; have /orthonormalE O2 := HW2.
have E12 : dot (W1 *m a) (W2 *m b) = dot (Q^T *m a) (diag_mx sv *m (T^T *m b)).
  by rewrite dot_mull mulmxA (svd_full HS) -!mulmxA dot_mulr.
have -> : sq_length (W1 *m a + W2 *m b) = sq_length a + sq_length b + 2%:R * dot (Q^T *m a) (diag_mx sv *m (T^T *m b)).
  rewrite !sq_dot dotDl !dotDr -E12 (dotC (W2 *m b)).
  have -> : dot (W1 *m a) (W1 *m a) = dot a a by rewrite dot_mull mulmxA O1 mul1mx.
  have -> : dot (W2 *m b) (W2 *m b) = dot b b by rewrite dot_mull mulmxA O2 mul1mx.
  by mring R.
rewrite [(1 + sj) * _]mulrDl mul1r ler_add2l.
set al := Q^T *m a; set be := T^T *m b.
have Hab (k : 'I_(minn p1 p2)) : (k < j)%N -> al k 0 + be k 0 = 0.
  move=> Hk; have Hk' : (k < n_functions n p1 p2)%N by apply: ltn_trans Hk _.
  have [c [c0 [_ E]]] := HC (Ordinal Hk'); have := Hx (Ordinal Hk') Hk.
  have -> : \sum_l F l (Ordinal Hk') * x l 0 = dot (col (Ordinal Hk') F) x.
    by rewrite dotE; apply: eq_bigr => l _; rewrite mxE.
  have Ek : first_block (Ordinal Hk') = k by exact/val_inj.
  rewrite E Ek dotZl dotDl !dot_mull -/a -/b => /eqP; rewrite mulf_eq0 (gt_eqF c0) /= => /eqP <-.
  by rewrite !dotE /al /be !mxE; congr (_ + _); apply: eq_bigr => l _; rewrite !mxE.
have H2 : 2%:R * dot al (diag_mx sv *m be) <= sj * (sq_length al + sq_length be).
  rewrite dotE /sq_length -big_split mulr_sumr mulr_sumr; apply: ler_sum => k _ /=.
  have -> : (diag_mx sv *m be) k 0 = sv 0 k * be k 0 by rewrite mul_diag_mx mxE.
  move: (Hab k); move: (al k 0) (be k 0) => u v Huv; have sk := Hs k.
  have Hsj : 0 <= sj := Hs _.
  case: (ltnP k j) => Hk.
    have -> : v = - u by apply/eqP; rewrite -addr_eq0 addrC; apply/eqP/Huv.
    apply: (@le_trans _ _ 0); last by rewrite mulr_ge0 // addr_ge0 ?sqr_ge0.
    have -> : 2%:R * (u * (sv 0 k * - u)) = - (2%:R * (sv 0 k * u ^+ 2)) by rewrite !expr2; mring R.
    by rewrite oppr_le0 mulr_ge0 ?ler0n // mulr_ge0 ?sqr_ge0.
  apply: (@le_trans _ _ (sv 0 k * (u ^+ 2 + v ^+ 2))).
    rewrite -subr_ge0.
    have -> : sv 0 k * (u ^+ 2 + v ^+ 2) - 2%:R * (u * (sv 0 k * v)) = sv 0 k * (u - v) ^+ 2 by rewrite !expr2; mring R.
    by rewrite mulr_ge0 ?sqr_ge0.
  by apply: ler_wpmul2r; [rewrite addr_ge0 ?sqr_ge0|apply: Hd].
apply: le_trans H2 _; apply: ler_wpmul2l; first exact: Hs.
by apply: ler_add; exact: bessel_le.
Qed.

Lemma two_smoothest : JointlySmoothest ws F e.
Proof.
split.
- case ES: (svd (W1^T *m W2)) => [[[Q s'] T]|]; last by move: HF; rewrite /jsf_vectors ES.
  by move: HF; rewrite (jsf_form n ES) => -[_ <-]; exact: jsf_orthonormal HW1 HW2 Hsvd _ _ _ ES.
- move=> j; have [E1 E2] := two_seen j; rewrite two_energy E1 E2 mxE -mulrDl -mulr2n -mulr_natr.
  by rewrite mulfK // pnatr_eq0.
- by move=> j x Hx; rewrite mxE; exact: two_bound.
- move=> j; rewrite -/(proj ws (col j F)) two_proj.
  have [Q [T [c [_ [_ [E [-> ->]]]]]]] := col_seen1 j.
  by rewrite E -!scalemxAr -scalerDr scalerA mxE [c * _]mulrC.
Qed.

End Two.

(** ** Three and more splits *)

Lemma multi_proj s (ws : seq (split R s)) x : proj ws x = tagged (stack ws) *m ((tagged (stack ws))^T *m x).
Proof. by rewrite mulmxA stack_gram mulmx_suml; apply: eq_bigr => w _; rewrite mulmxA. Qed.

Lemma multi_smoothest s k (svd : svd_t R k) (ws : seq (split R s)) sv F : SvdSolver svd -> LargestSvd svd ->
  jsf_vectors_multi svd ws = Some (sv, F) -> JointlySmoothest ws F (\row_j sv 0 j ^+ 2).
Proof.
move=> HS HL HF; have HO := jsf_multi_orthonormal HS HF.
move: HF; rewrite /jsf_vectors_multi; set M := tagged (stack ws).
case E: (svd _ _ _) => [[[U s'] V]|] // [Es EF]; subst s' U.
have [H1 [H2 [H3 [H4 H5]]]] := HS _ _ _ _ _ _ E; have [Hd Hlarge] := HL _ _ _ _ _ _ E.
have HP j : proj ws (col j F) = sv 0 j ^+ 2 *: col j F.
  rewrite multi_proj -/M.
  have -> : M^T *m col j F = sv 0 j *: col j V.
    have := congr1 (col j) H2; by rewrite col_mul col_diag.
  rewrite -scalemxAr.
  have -> : M *m col j V = sv 0 j *: col j F.
    have := congr1 (col j) H1; by rewrite col_mul col_diag.
  by rewrite scalerA expr2.
split=> //.
- move=> j; rewrite energy_dot HP dotZr mxE.
  have -> : dot (col j F) (col j F) = 1 by rewrite -sq_dot; exact: unit_col.
  by rewrite mulr1.
- move=> j x Hx; rewrite mxE.
  set al := F^T *m x; set y := x - F *m al.
  have Hal (i : 'I_k) : (i < j)%N -> al i 0 = 0.
    by move=> Hi; rewrite /al mxE -[RHS](Hx i Hi); apply: eq_bigr => l _; rewrite mxE.
  have Fy : F^T *m y = 0 by rewrite /y mulmxBr mulmxA H3 mul1mx subrr.
  have Ex : x = F *m al + y by rewrite /y addrC subrK.
  have Enx : sq_length x = sq_length al + sq_length y by rewrite /y (bessel _ H3) addrC subrK.
  have En : energy ws x = dot al (diag_mx (\row_i sv 0 i ^+ 2) *m al) + sq_length (M^T *m y).
    rewrite energy_dot {2}Ex.
    have -> : proj ws (F *m al + y) = F *m (diag_mx (\row_i sv 0 i ^+ 2) *m al) + proj ws y.
      have -> : proj ws (F *m al + y) = proj ws (F *m al) + proj ws y.
        by rewrite !multi_proj !mulmxDr.
      by rewrite (@proj_lin _ _ _ F (\row_i sv 0 i ^+ 2)) // => i; rewrite HP mxE.
    rewrite dotDr dot_mulr -/al; congr (_ + _); rewrite multi_proj -/M dot_mulr.
    have -> : M^T *m x = V *m (diag_mx sv *m al) + M^T *m y by rewrite {1}Ex mulmxDr !mulmxA H2.
    rewrite dotDl -sq_dot dot_mulr trmxK mulmxA H1 -mulmxA.
    by rewrite dot_mull Fy dot0r add0r.
  rewrite En Enx mulrDr; apply: ler_add.
    rewrite dotE /sq_length mulr_sumr; apply: ler_sum => i _.
    have -> : (diag_mx (\row_i0 sv 0 i0 ^+ 2) *m al) i 0 = sv 0 i ^+ 2 * al i 0 by rewrite mul_diag_mx mxE [X in X * _]mxE.
    case: (ltnP i j) => Hi; first by rewrite Hal // !expr2 !mulr0.
    rewrite mulrCA -expr2; apply: ler_wpmul2r; first exact: sqr_ge0.
    by rewrite ler_sqr ?nnegrE ?H5 // Hd.
  apply: Hlarge => i; transitivity ((F^T *m y) i 0); last by rewrite Fy mxE.
  by rewrite [RHS]mxE; apply: eq_bigr => l _; congr (_ * _); rewrite mxE.
- by move=> j; rewrite -/(proj ws (col j F)) HP mxE.
Qed.

(** ** Uniqueness of the energies *)

Section Unique.
Variables (s k : nat) (ws : seq (split R s)) (F : 'M[R]_(s, k)) (e : 'rV[R]_k).
Hypothesis H : JointlySmoothest ws F e.

Lemma smooth_sorted (i j : 'I_k) : (i <= j)%N -> e 0 j <= e 0 i.
Proof.
move=> Hij; have [/orthonormalE HO He Hm _] := H.
have := Hm i (col j F); rewrite He (unit_col j HO) mulr1; apply=> l Hl.
transitivity ((F^T *m F) l j); last first.
  have Hlj : (l == j) = false by apply/negbTE; rewrite neq_ltn (leq_trans Hl Hij).
  by rewrite HO mxE Hlj.
by rewrite [RHS]mxE; apply: eq_bigr => a _; rewrite !mxE.
Qed.

Lemma energy_combination (c : 'cV[R]_k) : energy ws (F *m c) = \sum_i e 0 i * c i 0 ^+ 2.
Proof.
have [/orthonormalE HO _ _ HP] := H.
rewrite energy_dot (proj_lin c HP) dot_mull mulmxA HO mul1mx dotE; apply: eq_bigr => i _.
have -> : (diag_mx e *m c) i 0 = e 0 i * c i 0 by rewrite mul_diag_mx mxE.
by rewrite mulrCA -expr2.
Qed.

Lemma sq_combination (c : 'cV[R]_k) : sq_length (F *m c) = sq_length c.
Proof. by have [/orthonormalE HO _ _ _] := H; rewrite !sq_dot dot_mull mulmxA HO mul1mx. Qed.
End Unique.

Lemma nonzero_kernel m n (B : 'M[R]_(m, n)) : (n < m)%N -> exists v : 'rV[R]_m, v != 0 /\ v *m B = 0.
Proof.
move=> Hn; have : kermx B != 0.
  by rewrite -mxrank_eq0 mxrank_ker subn_eq0 -ltnNge (leq_ltn_trans (rank_leq_col B)).
by case/rowV0Pn => v /sub_kermxP Hv v0; exists v.
Qed.

Lemma energies_le s k k' (ws ws' : seq (split R s)) (F : 'M[R]_(s, k)) (F' : 'M[R]_(s, k')) e e' :
  (forall x, energy ws x = energy ws' x) -> JointlySmoothest ws F e -> JointlySmoothest ws' F' e' ->
  forall (j : 'I_k) (j' : 'I_k'), val j = val j' -> e 0 j <= e' 0 j'.
Proof.
move=> HE H H' j j' Hj.
have Hjk : (j < k')%N by have := ltn_ord j'; rewrite -[nat_of_ord j']/(val j') -Hj.
have Hk' (i : 'I_j) : (i < k')%N := ltn_trans (ltn_ord i) Hjk.
pose B1 : 'M[R]_(k, j) := \matrix_(a, b) \sum_l F l a * F' l (Ordinal (Hk' b)).
pose B2 : 'M[R]_(k, k - j.+1) := \matrix_(a, b) (val a == j.+1 + b)%N%:R.
have Hdim : (j + (k - j.+1) < k)%N by rewrite -addSn subnKC.
have [v [v0]] := nonzero_kernel (row_mx B1 B2) Hdim.
rewrite mul_mx_row -[X in _ = X]row_mx0 => /eq_row_mx [V1 V2].
pose c := v^T; have cout (i : 'I_k) : (j < i)%N -> c i 0 = 0.
  move=> Hi; have Hb : (i - j.+1 < k - j.+1)%N by rewrite ltn_sub2r // (leq_ltn_trans Hi).
  transitivity ((v *m B2) 0 (Ordinal Hb)); last by rewrite V2 mxE.
  rewrite [RHS]mxE [LHS]mxE.
  rewrite (bigD1 i) //= big1 ?addr0; last first.
    by move=> l Hl; rewrite !mxE /= subnKC // -val_eqE in Hl *; rewrite (negbTE Hl) mulr0.
  by rewrite !mxE /= subnKC // eqxx mulr1.
have [_ _ Hm' _] := H'.
have Hx : energy ws' (F *m c) <= e' 0 j' * sq_length (F *m c).
  apply: Hm' => i Hi; have Hi' : (i < j)%N by rewrite Hj.
  transitivity ((v *m B1) 0 (Ordinal Hi')); last by rewrite V1 mxE.
  rewrite [RHS]mxE.
  have Ei : Ordinal (Hk' (Ordinal Hi')) = i by exact/val_inj.
  rewrite [RHS](eq_bigr (fun a => \sum_l v 0 a * (F l a * F' l i))); last by move=> a _; rewrite mxE Ei mulr_sumr.
  rewrite exchange_big /=; apply: eq_bigr => l _; rewrite mxE mulr_sumr; apply: eq_bigr => a _.
  by rewrite [c a 0]mxE; mring R.
rewrite -HE (energy_combination H) (sq_combination H) in Hx.
have c0 : 0 < sq_length c.
  rewrite lt_neqAle sq_ge0 andbT eq_sym; apply/eqP => /sq_eq0 E; move: v0.
  by rewrite -[v]trmxK -/c E trmx0 eqxx.
rewrite -(ler_pmul2r c0); apply: le_trans Hx; rewrite /sq_length mulr_sumr; apply: ler_sum => i _.
case: (ltnP j i) => Hi; first by rewrite cout // !expr2 !mulr0.
by apply: ler_wpmul2r; [exact: sqr_ge0|exact: smooth_sorted H _ _ Hi].
Qed.

(** ** Bounds *)

Lemma seen_le s p (W : 'M[R]_(s, p)) x : Orthonormal W -> seen W x <= sq_length x.
Proof. by move=> /orthonormalE H; rewrite seen_sq; exact: bessel_le. Qed.

Lemma seen_all s p (W : 'M[R]_(s, p)) x : Orthonormal W -> seen W x = sq_length x -> W *m (W^T *m x) = x.
Proof.
move=> /orthonormalE H; rewrite seen_sq => E.
have := bessel x H; rewrite E subrr => /sq_eq0 /eqP; by rewrite subr_eq0 => /eqP E'; exact: esym E'.
Qed.

Lemma energy_le s (ws : seq (split R s)) x : (forall w, List.In w ws -> Orthonormal (evecs w)) ->
  energy ws x <= (size ws)%:R * sq_length x.
Proof.
elim: ws => [|w ws IH] H; first by rewrite /energy big_nil mul0r.
rewrite /energy big_cons /= -add1n natrD mulrDl mul1r; apply: ler_add.
  by apply: seen_le; apply: H; left.
by apply: IH => w' Hw; apply: H; right.
Qed.

Lemma energy_all s (ws : seq (split R s)) x : (forall w, List.In w ws -> Orthonormal (evecs w)) ->
  energy ws x = (size ws)%:R * sq_length x ->
  forall w, List.In w ws -> evecs w *m ((evecs w)^T *m x) = x.
Proof.
elim: ws => [|w ws IH] H //.
have Hw : seen (evecs w) x <= sq_length x by apply: seen_le; apply: H; left.
have Hr : energy ws x <= (size ws)%:R * sq_length x by apply: energy_le => w' Hw'; apply: H; right.
rewrite /energy big_cons /= -add1n natrD mulrDl mul1r -/(energy ws x) => E.
have E1 : seen (evecs w) x = sq_length x.
  apply/le_anti; rewrite Hw /=; move: Hr; rewrite -(ler_add2l (sq_length x)) -E ler_add2r.
  by [].
have E2 : energy ws x = (size ws)%:R * sq_length x by apply: (@addrI _ (sq_length x)); rewrite -E E1.
move=> w' [<-|Hin]; first by apply: seen_all => //; apply: H; left.
by apply: IH => // w'' Hw''; apply: H; right.
Qed.

Lemma energy_perm s (ws ws' : seq (split R s)) x : Permutation.Permutation ws ws' -> energy ws x = energy ws' x.
Proof.
rewrite /energy; elim=> {ws ws'} [|w l l' _ IH|a b l|l l' l'' _ H1 _ H2] //; rewrite ?big_cons ?IH //.
  by rewrite addrCA.
by rewrite H1.
Qed.

(** ** Threshold *)
Lemma singular_le1 s p1 p2 (W1 : 'M[R]_(s, p1)) (W2 : 'M[R]_(s, p2)) g : W1^T *m W1 = 1%:M -> W2^T *m W2 = 1%:M ->
  SingularValue (W1^T *m W2) g -> g <= 1.
Proof.
move=> O1 O2 [g0 [u [v [Hu Hv E]]]].
have : sq_length (g *: u) <= 1.
  rewrite -E -mulmxA; apply: le_trans (bessel_le _ O1) _.
  by rewrite sq_dot dot_mull mulmxA O2 mul1mx -sq_dot Hv.
by rewrite sq_scale Hu mulr1 expr_le1.
Qed.

Lemma perm_orth s p (A B : 'M[R]_(s, p)) : RowsPermuted A B -> A^T *m A = 1%:M -> B^T *m B = 1%:M.
Proof.
move=> [q ->] H; rewrite row_permE trmx_mul tr_perm_mx -mulmxA (mulmxA (perm_mx _)) -perm_mxM.
by rewrite mulVg perm_mx1 mul1mx.
Qed.

Lemma sort_nth2 (g : seq R) (P : R -> Prop) : (forall x, x \in g -> P x) -> (2 < size g)%N ->
  P (nth 0 (sort (fun x y => y <= x) g) 2).
Proof. by move=> H Hs; apply: H; rewrite -(mem_sort (fun x y => y <= x)) mem_nth // size_sort. Qed.

(** ** Cut-off *)
Section Cut.
Variables (s k : nat) (cut : R) (e : 'rV[R]_k) (V : 'M[R]_(s, k)).
Let kept := [seq i <- enum 'I_k | cut < e 0 i].

Lemma kept_uniq : uniq kept.
Proof. by rewrite filter_uniq ?enum_uniq. Qed.

Lemma cut_orth : Orthonormal V -> Orthonormal (evecs (cut_pairs cut e V)).
Proof.
move=> H i j; rewrite /= (eq_bigr (fun l => V l (tnth (in_tuple kept) i) * V l (tnth (in_tuple kept) j))).
  by rewrite H; congr (_%:R); congr nat_of_bool; apply: inj_eq; apply/tuple_uniqP; exact: kept_uniq.
by move=> l _; rewrite !mxE.
Qed.

Lemma cut_pairs_eig K : EigenPairs K e V -> EigenPairs K (evals (cut_pairs cut e V)) (evecs (cut_pairs cut e V)).
Proof.
move=> H; apply/matrixP => i j; rewrite mul_mx_diag [RHS]mxE /= !mxE.
set c := tnth (in_tuple kept) j; have := congr1 (fun M : 'M[R]_(s, k) => M i c) H.
by rewrite mul_mx_diag !mxE => <-; apply: eq_bigr => l _; rewrite !mxE.
Qed.

Lemma cut_above j : cut < evals (cut_pairs cut e V) 0 j.
Proof. by rewrite /= mxE; have := mem_tnth j (in_tuple kept); rewrite mem_filter => /andP[]. Qed.

Lemma cut_exactly : forall c, cut < e 0 c <->
  exists j, evals (cut_pairs cut e V) 0 j = e 0 c /\ col j (evecs (cut_pairs cut e V)) = col c V.
Proof.
move=> c; split.
- move=> Hc; have : c \in kept by rewrite mem_filter Hc mem_enum.
  move=> Hin; have /tnthP [j Ej] : c \in in_tuple kept by [].
  by exists j; rewrite /= mxE -Ej; split=> //; apply/matrixP => a b; rewrite !mxE -Ej.
- by move=> [j [<- _]]; exact: cut_above.
Qed.
End Cut.

Lemma kernel_eigenpairs_in s k (eig : eig_t R k) cut (ks : seq 'M[R]_s) ws : kernel_eigenpairs eig cut ks = Some ws ->
  List.Forall2 (fun K w => exists e V, eig s K = Some (e, V) /\ w = cut_pairs cut e V) ks ws.
Proof.
elim: ks ws => [|K ks IH] ws; first by move=> [<-]; constructor.
rewrite /kernel_eigenpairs /= -/(kernel_eigenpairs eig cut ks).
case E: (eig s K) => [[e V]|] //; case Er: (kernel_eigenpairs eig cut ks) => [ws'|] // [<-].
by constructor; [exists e, V|exact: IH].
Qed.

(** ** Examples *)
Lemma scalar_desc (a : R) : DescendingSvd (EmbExample.scalar_svd a).
Proof.
move=> p1 p2 M U' s' V'; case: p1 M U' s' V' => [|[|[|p1]]] M U' s' V' //; case: p2 M U' s' V' => [|[|[|p2]]] M U' s' V' //=.
by case: eqP => // _ [_ <- _] i j _; rewrite !mxE.
Qed.

Lemma gram3_largest : LargestSvd (@EmbExample.gram3_svd R).
Proof.
move=> n l M U' s' V'; case: n M U' => [|[|[|n]]] M U' //=; case: eqP => // H [<- <- _].
split; first by move=> i j _; rewrite !mxE.
move=> j x Hx; have -> : x = 0; last by rewrite mulmx0 !sq_dot !dot0r mulr0.
apply/matrixP => i k; rewrite [k]ord1 [RHS]mxE -[RHS](Hx i) (bigD1 i) //= mxE eqxx mul1r big1 ?addr0 //.
by move=> a Ha; rewrite mxE (negbTE Ha) mul0r.
Qed.

Lemma two_example : exists (W1 W2 : 'M[R]_(2 + 2, 2)) (svd : full_svd_t R) sv F,
  Orthonormal W1 /\ Orthonormal W2 /\ FullSvd svd /\ DescendingSvd svd /\
  jsf_vectors svd 1 W1 W2 = Some (sv, F) /\ forall j, sv 0 j = 3%:R / 5%:R.
Proof.
pose a : R := 3%:R / 5%:R; pose b : R := 4%:R / 5%:R.
pose W1 : 'M[R]_(2 + 2, 2) := col_mx 1%:M 0; pose W2 : 'M[R]_(2 + 2, 2) := col_mx a%:M b%:M.
have E1 : W1^T *m W1 = 1%:M by rewrite tr_col_mx mul_row_col trmx1 mulmx1 mulmx0 addr0.
have E2 : W2^T *m W2 = 1%:M.
  rewrite tr_col_mx mul_row_col !tr_scalar_mx -!scalar_mxM -raddfD /=; congr (_%:M).
  rewrite /a /b; mfield R.
have E3 : W1^T *m W2 = a%:M.
  by rewrite tr_col_mx mul_row_col trmx1 mul1mx trmx0 mul0mx addr0.
have Ha : 0 <= a by rewrite divr_ge0 ?ler0n.
have ES : EmbExample.scalar_svd a (W1^T *m W2) = Some (1%:M : 'M[R]_2, const_mx a, 1%:M) by rewrite E3 /= eqxx.
exists W1, W2, (EmbExample.scalar_svd a).
do 2 eexists; split; first exact/orthonormalE.
split; first exact/orthonormalE.
split; first exact: EmbExample.scalar_svd_ok.
split; first exact: scalar_desc.
split; first exact: (jsf_form 1 ES).
by move=> j; rewrite mxE.
Qed.

End Proofs.
