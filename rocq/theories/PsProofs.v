From mathcomp Require Import all_ssreflect all_algebra.
From Verif Require Import RingTac LinModel LinSpec ResModel ResSpec ResProofs PsModel PsSpec PsHerm.
Import Order.Theory GRing.Theory Num.Theory.
Set Implicit Arguments.
Unset Strict Implicit.
Unset Printing Implicit Defensive.
Local Open Scope ring_scope.

Section Ring.
Variable R : comRingType.
Add Ring RRing : (rt_theory R).
Lemma ring_split (p q a b ac bc : R) :
  (p + q) * (q * (a * ac) + p * (b * bc)) - p * q * ((a + b) * (ac + bc)) = (q * a - p * b) * (q * ac - p * bc).
Proof. mring R. Qed.
Lemma ring_w (p q w a b c : R) : (p + q) * (q * (w * a) + p * (c * (w * b))) = w * ((p + q) * (q * a + p * (c * b))).
Proof. mring R. Qed.
Lemma ring_pq (p q m : R) : p * q * ((p + q) ^+ 2 * m) = (p + q) * (q * (p ^+ 2 * m) + p * (q ^+ 2 * m)).
Proof. rewrite !expr2; mring R. Qed.
End Ring.

Section Proofs.
Variable C : numClosedFieldType.

Lemma quad_ct n (M : 'M[C]_n) (v : 'cV[C]_n) : quad M v = (ct v *m M *m v) 0 0.
Proof. by []. Qed.

Lemma norm2_ct n (v : 'cV[C]_n) : coeff_norm2 v = (ct v *m v) 0 0.
Proof. by rewrite mxE; apply: eq_bigr => k _; rewrite ctE normCK mulrC. Qed.

Lemma norm2_sq n (v : 'cV[C]_n) : coeff_norm2 v = sq (ct v).
Proof. by rewrite /sq ctK norm2_ct. Qed.

Lemma norm2_gt0 n (v : 'cV[C]_n) : v != 0 -> 0 < coeff_norm2 v.
Proof.
move=> Hv; rewrite norm2_sq lt_neqAle sq_ge0 andbT eq_sym; apply: contra Hv => /eqP /sq_eq0 E.
by rewrite -[v]ctK E; apply/eqP/matrixP => i j; rewrite !mxE rmorph0.
Qed.

Lemma quad_congr n (S M : 'M[C]_n) (v : 'cV[C]_n) : ct S = S -> quad (S *m M *m S) v = quad M (S *m v).
Proof. by move=> E; rewrite !quad_ct ctM E !mulmxA. Qed.

Lemma quad_scalar n a (v : 'cV[C]_n) : quad a%:M v = a * coeff_norm2 v.
Proof. by rewrite quad_ct mul_mx_scalar -scalemxAl mxE norm2_ct. Qed.

Lemma quad_pair n (M : 'M[C]_n) mu v : M *m v = mu *: v -> quad M v = mu * coeff_norm2 v.
Proof. by move=> E; rewrite quad_ct -mulmxA E -scalemxAr mxE norm2_ct. Qed.

Lemma conj_diag n (d : 'rV[C]_n) : RealData d -> ct (diag_mx d) = diag_mx d.
Proof.
move=> H; apply/matrixP => i j; rewrite ctE !mxE [j == i]eq_sym; case: eqP => [->|_].
  by rewrite mulr1n conj_Creal.
by rewrite !mulr0n rmorph0.
Qed.

Lemma ct_real m n (M : 'M[C]_(m, n)) : RealData M -> ct M = M^T.
Proof. by move=> H; rewrite /ct conj_real. Qed.

Section Point.
Variable n : nat.
Variables (eigh : 'M[C]_n.+1 -> 'rV[C]_n.+1 * 'M[C]_n.+1) (eigs : 'M[C]_n.+1 -> option (seq (C * 'cV[C]_n.+1))).

(** The matrix SQ is an inverse root of the regularised Gram matrix. *)
Lemma sq_spec (G : 'M[C]_n.+1) reg :
  EighOf (g_adapt G reg) (eigh (g_adapt G reg)) ->
  (forall v : 'cV[C]_n.+1, v != 0 -> 0 < quad (g_adapt G reg) v) ->
  ct (sq_matrix eigh G reg) = sq_matrix eigh G reg /\
  sq_matrix eigh G reg *m g_adapt G reg *m sq_matrix eigh G reg = 1%:M.
Proof.
rewrite /sq_matrix; case: (eigh _) => D V /= [HD [HV [HO HM]]] Hpos.
have HO' : V^T *m V = 1%:M by apply: mulmx1C.
have Hd i : 0 < D 0 i.
  have Hc : col i V != 0.
    apply/eqP => E; have : (V^T *m V) i i = 0.
      rewrite mxE big1 // => k _; rewrite !mxE.
      by have := congr1 (fun M : 'cV_n.+1 => M k 0) E; rewrite !mxE => ->; rewrite mulr0.
    by rewrite HO' !mxE eqxx => /eqP; rewrite oner_eq0.
  have := Hpos _ Hc; rewrite [in quad _ _]HM.
  have E : V^T *m col i V = delta_mx i 0 by rewrite colE mulmxA HO' mul1mx.
  have -> : quad (V *m diag_mx D *m V^T) (col i V) = quad (diag_mx D) (V^T *m col i V).
    by rewrite !quad_ct ctM [ct V^T]ct_real ?trmxK ?mulmxA // => a b; rewrite mxE.
  rewrite E /quad (_ : (conj_mx (delta_mx i 0 : 'cV[C]_n.+1))^T = delta_mx 0 i).
    by rewrite -rowE -colE !mxE eqxx.
  by apply/matrixP => a b; rewrite !mxE andbC; case: (_ && _); rewrite ?rmorph1 ?rmorph0.
set F := map_mx (@inv_root C) D.
have HF i : F 0 i = sqrtC (D 0 i)^-1.
  by rewrite mxE /inv_root gt_eqF // gtr0_norm // div1r.
have HFr : RealData F.
  by move=> i j; rewrite (ord1 i) HF ger0_real // sqrtC_ge0 invr_ge0 ltW.
have E1 : diag_mx F *m diag_mx D *m diag_mx F = 1%:M.
  rewrite -!mulmxA; apply/matrixP => i j; rewrite mul_diag_mx mxE mul_diag_mx !mxE -/F.
  case: eqP => [->|_]; last by rewrite mulr0n !mulr0.
  rewrite !mulr1n; have := HF j; rewrite mxE => ->; rewrite mulrCA -expr2 sqrtCK.
  by rewrite mulfV // gt_eqF.
split.
  by rewrite !ctM [ct V^T]ct_real ?trmxK ?(conj_diag HFr) ?[ct V]ct_real ?mulmxA // => a b; rewrite mxE.
rewrite {1}HM.
have -> : V *m (diag_mx F *m V^T) *m (V *m diag_mx D *m V^T) *m (V *m (diag_mx F *m V^T))
  = V *m (diag_mx F *m (V^T *m V) *m diag_mx D *m (V^T *m V) *m diag_mx F) *m V^T by rewrite !mulmxA.
by rewrite HO' !mulmx1 E1 mulmx1 HO.
Qed.

Variables (s N : nat) (w : option 'rV[C]_s) (X Y : 'M[C]_(s, n.+1)) (reg : C).
Hypotheses (HX : RealData X) (HY : RealData Y) (Hw : forall i, 0 <= Weights N w 0 i).
Let W := Weights N w.
Let G := full_gram N w X X.
Let shift := frobenius G * reg.
Hypothesis Hpos : PositiveMass W X shift.
Hypothesis Heigh : EighOf (g_adapt G reg) (eigh (g_adapt G reg)).

Lemma quad_mass v : quad (g_adapt G reg) v = mass W X shift v.
Proof. by rewrite /g_adapt quadD quad_scalar quad_size. Qed.

Lemma weights_real i : (W 0 i)^* = W 0 i.
Proof. by rewrite conj_Creal // ger0_real // Hw. Qed.

Lemma gram_ct (A B : 'M[C]_(s, n.+1)) : RealData A -> RealData B ->
  ct (full_gram N w A B) = full_gram N w B A.
Proof.
move=> HA HB; apply/matrixP => i j; rewrite ctE !gramE rmorph_sum; apply: eq_bigr => k _.
by rewrite !rmorphM /= weights_real !conj_Creal // [A _ _ * _]mulrC.
Qed.

Lemma ctD m p (M L : 'M[C]_(m, p)) : ct (M + L) = ct M + ct L.
Proof. by apply/matrixP => i j; rewrite !mxE rmorphD. Qed.

Lemma numerator_ct z :
  ct (numerator G (full_gram N w X Y) (full_gram N w Y Y) z) = numerator G (full_gram N w X Y) (full_gram N w Y Y) z.
Proof.
rewrite /numerator ctD !ctB !ctZ gram_tr !gram_ct // conjCK.
have -> : (`|z| ^+ 2)^* = `|z| ^+ 2 by rewrite conj_Creal // rpredX // normr_real.
by congr (_ + _); rewrite addrAC.
Qed.

Theorem point_minimal z :
  let SQ := sq_matrix eigh G reg in
  let g := (G, full_gram N w X Y, full_gram N w Y Y) in
  EigsOf (SQ *m numerator G (full_gram N w X Y) (full_gram N w Y Y) z *m SQ)
         (eigs (SQ *m numerator G (full_gram N w X Y) (full_gram N w Y Y) z *m SQ)) ->
  exists r v, [/\ at_point eigh eigs g reg z = Value (Some r, v),
                  MinimalResidual W X Y shift z r &
                  Attains W X Y shift z r (SQ *m v)].
Proof.
move=> SQ g [mu [v [E Hv HR Hmin]]].
have [HSc HS1] : ct SQ = SQ /\ SQ *m g_adapt G reg *m SQ = 1%:M.
  by apply: sq_spec => // u Hu; rewrite quad_mass; apply: Hpos.
have Eat : at_point eigh eigs g reg z = Value (Some (sqrtC ('Re mu)), v) by rewrite /at_point /g -/SQ E.
rewrite Eat.
set Num := numerator _ _ _ z in E HR Hmin *; set B := SQ *m Num *m SQ in E HR Hmin *.
have HB : ct B = B by rewrite /B !ctM HSc numerator_ct mulmxA.
have Hquad u : quad B u = defect W X Y z (SQ *m u) by rewrite /B quad_congr // quad_defect.
have Hmass u : mass W X shift (SQ *m u) = coeff_norm2 u.
  by rewrite -quad_mass -quad_congr // HS1 quad_scalar mul1r.
have Hmu : mu * coeff_norm2 v = defect W X Y z (SQ *m v).
  by rewrite -Hquad; symmetry; apply: quad_pair; apply/rightP.
have Hmu0 : 0 <= mu.
  by rewrite -(pmulr_lge0 _ (norm2_gt0 Hv)) Hmu; apply: defect_ge0.
have Er : sqrtC ('Re mu) ^+ 2 = mu by rewrite ReK // sqrtCK.
have Hinv : SQ *m (g_adapt G reg *m SQ) = 1%:M by rewrite mulmxA.
have Hatt : Attains W X Y shift z (sqrtC ('Re mu)) (SQ *m v).
  split; last by rewrite Er Hmass Hmu.
  apply/eqP => Z; have := Hmass v; rewrite Z.
  suff -> : mass W X shift 0 = 0 by move=> H0; have := norm2_gt0 Hv; rewrite -H0 ltxx.
  rewrite -quad_mass quad_ct mulmx0 mxE; by [].
exists (sqrtC ('Re mu)), v; split=> //.
split; first by rewrite ReK // sqrtC_ge0.
split; last by exists (SQ *m v).
move=> u; rewrite Er.
have Eu : u = SQ *m (g_adapt G reg *m SQ *m u).
  by rewrite mulmxA Hinv mul1mx.
set x := g_adapt G reg *m SQ *m u in Eu.
rewrite Eu Hmass -Hquad.
have := @herm_min C n B HB mu (ct x).
rewrite ger0_norm // /sq ctK -norm2_ct -/(quad B x); apply.
  by move=> y; rewrite -{1}[y]ctK -/(quad B (ct y)) Hquad; apply: defect_ge0.
move=> r y Hy Ey; rewrite -norm_conjC -[leLHS]ger0_norm //.
have := Hmin r^* (ct y); rewrite norm_conjC [`|mu|]ger0_norm // => -> //.
  by apply: contra Hy => /eqP Z; rewrite -[y]ctK Z; apply/eqP/matrixP => i j; rewrite !mxE rmorph0.
by apply/rightP; rewrite -{1}HB -ctM Ey ctZ.
Qed.

End Point.

(** ** Consequences *)
Lemma sqr_le (a b : C) : 0 <= a -> 0 <= b -> a ^+ 2 <= b ^+ 2 -> a <= b.
Proof. by move=> Ha Hb; rewrite ler_sqr ?nnegrE. Qed.

Lemma minimal_unique s n (w : 'rV[C]_s) (X Y : 'M[C]_(s, n)) shift z r1 r2 :
  PositiveMass w X shift ->
  MinimalResidual w X Y shift z r1 -> MinimalResidual w X Y shift z r2 -> r1 = r2.
Proof.
move=> Hp [H1 [L1 [v1 [N1 A1]]]] [H2 [L2 [v2 [N2 A2]]]].
apply/eqP; rewrite eq_le; apply/andP; split; apply: sqr_le => //.
  by rewrite -(ler_pmul2r (Hp _ N2)) -A2.
by rewrite -(ler_pmul2r (Hp _ N1)) -A1.
Qed.

Lemma ev_conj s n (X : 'M[C]_(s, n)) (v : 'cV[C]_n) i : RealData X ->
  \sum_k X i k * (conj_mx v) k 0 = (\sum_k X i k * v k 0)^*.
Proof.
by move=> HX; rewrite -/(ev X v i) (conj_ev v i HX); apply: eq_bigr => k _; rewrite mxE.
Qed.

Lemma defect_conj s n (w : 'rV[C]_s) (X Y : 'M[C]_(s, n)) z v : RealData X -> RealData Y ->
  defect w X Y z^* (conj_mx v) = defect w X Y z v.
Proof.
move=> HX HY; apply: eq_bigr => i _; rewrite !ev_conj // -rmorphM -rmorphB norm_conjC; by [].
Qed.

Lemma mass_conj s n (w : 'rV[C]_s) (X : 'M[C]_(s, n)) shift v : RealData X ->
  mass w X shift (conj_mx v) = mass w X shift v.
Proof.
move=> HX; rewrite /mass; congr (_ + _ * _).
  by apply: eq_bigr => i _; rewrite ev_conj // norm_conjC.
by apply: eq_bigr => k _; rewrite mxE norm_conjC.
Qed.

Lemma conj_mxK m n (M : 'M[C]_(m, n)) : conj_mx (conj_mx M) = M.
Proof. by apply/matrixP => i j; rewrite !mxE conjCK. Qed.

Lemma conj_mx_neq0 n (v : 'cV[C]_n) : v != 0 -> conj_mx v != 0.
Proof.
move=> H; apply: contra H => /eqP E; rewrite -[v]conj_mxK E; apply/eqP/matrixP => i j.
by rewrite !mxE rmorph0.
Qed.

Lemma minimal_conj s n (w : 'rV[C]_s) (X Y : 'M[C]_(s, n)) shift z r : RealData X -> RealData Y ->
  MinimalResidual w X Y shift z r -> MinimalResidual w X Y shift z^* r.
Proof.
move=> HX HY [H1 [L [v [Nv A]]]]; split=> //; split.
  by move=> u; rewrite -[u]conj_mxK defect_conj // mass_conj.
by exists (conj_mx v); rewrite conj_mx_neq0 // defect_conj // mass_conj.
Qed.

Lemma size_gt0 s n (w : 'rV[C]_s) (X : 'M[C]_(s, n)) v :
  (forall i, 0 < w 0 i) -> Spanning X -> v != 0 -> 0 < size_of w X v.
Proof.
move=> Hw HS Hv; rewrite lt_neqAle size_ge0 ?andbT; last by move=> i; apply: ltW.
rewrite eq_sym; apply: contra Hv => /eqP E; apply/eqP; apply: HS => i.
have P k : true -> 0 <= w 0 k * `| \sum_j X k j * v j 0 | ^+ 2.
  by move=> _; rewrite mulr_ge0 ?exprn_ge0 // ltW.
have /eqP := psumr_eq0P P E (i := i) isT.
by rewrite mulf_eq0 gt_eqF //= expf_eq0 /= normr_eq0 => /eqP.
Qed.

Lemma norm2_ge0 n (v : 'cV[C]_n) : 0 <= coeff_norm2 v.
Proof. by apply: sumr_ge0 => k _; apply: exprn_ge0. Qed.

Lemma positive_spanning s n (w : 'rV[C]_s) (X : 'M[C]_(s, n)) shift :
  (forall i, 0 < w 0 i) -> Spanning X -> 0 <= shift -> PositiveMass w X shift.
Proof.
move=> Hw HS Hs v Hv; rewrite /mass ltr_paddr ?size_gt0 // mulr_ge0 // norm2_ge0; by [].
Qed.

Lemma positive_shift s n (w : 'rV[C]_s) (X : 'M[C]_(s, n)) shift :
  (forall i, 0 <= w 0 i) -> 0 < shift -> PositiveMass w X shift.
Proof.
by move=> Hw Hs v Hv; rewrite /mass ltr_paddl ?size_ge0 // mulr_gt0 // norm2_gt0.
Qed.

Lemma minimal_zero s n (w : 'rV[C]_s) (X Y : 'M[C]_(s, n)) shift z r (A : 'M[C]_n) :
  (forall i, 0 < w 0 i) -> Spanning X -> 0 <= shift -> ExactData X Y A ->
  MinimalResidual w X Y shift z r ->
  (r = 0 <-> exists v, v != 0 /\ LeftPair A z v).
Proof.
move=> Hw HS Hs HE HM; have Hp := positive_spanning Hw HS Hs; case: HM => H0 [L [v [Nv Av]]].
split=> [E|[u [Nu Hu]]].
  exists v; split=> //; apply/(defect_eq0 z v Hw HS HE); by rewrite Av E expr0n /= mul0r.
have Z : defect w X Y z u = 0 by apply/(defect_eq0 z u Hw HS HE).
have := L u; rewrite Z pmulr_lle0 ?Hp // => Hr.
by apply/eqP; rewrite -sqrf_eq0 eq_le Hr exprn_ge0.
Qed.

(** Triangle inequality in squared form: p q |a + b|^2 <= (p + q) (q |a|^2 + p |b|^2). *)
Lemma norm_split (p q a b : C) : 0 <= p -> 0 <= q ->
  p * q * `|a + b| ^+ 2 <= (p + q) * (q * `|a| ^+ 2 + p * `|b| ^+ 2).
Proof.
move=> Hp Hq; rewrite -subr_ge0.
have -> : (p + q) * (q * `|a| ^+ 2 + p * `|b| ^+ 2) - p * q * `|a + b| ^+ 2 = `|q * a - p * b| ^+ 2.
  rewrite !normCK rmorphD rmorphB !rmorphM /= ![p^*]conj_Creal ?ger0_real // ![q^*]conj_Creal ?ger0_real //.
  exact: ring_split.
exact: exprn_ge0.
Qed.

Lemma defect_split s n (w : 'rV[C]_s) (X Y : 'M[C]_(s, n)) z z' p v :
  (forall i, 0 <= w 0 i) -> 0 <= p ->
  p * `|z - z'| * defect w X Y z v
  <= (p + `|z - z'|) * (`|z - z'| * defect w X Y z' v + p * (`|z - z'| ^+ 2 * size_of w X v)).
Proof.
move=> Hw Hp; rewrite /defect /size_of !mulr_sumr -big_split /= mulr_sumr; apply: ler_sum => i _.
set a := \sum_k Y i k * v k 0; set b := \sum_k X i k * v k 0.
have E : a - z * b = (a - z' * b) + (z' - z) * b by rewrite mulrBl addrA subrK.
have := norm_split (a - z' * b) ((z' - z) * b) Hp (normr_ge0 (z - z')).
rewrite -E normrM exprMn [`|z' - z|]distrC => /(ler_wpmul2l (Hw i)) H.
by rewrite mulrCA ring_w.
Qed.

Lemma minimal_lipschitz s n (w : 'rV[C]_s) (X Y : 'M[C]_(s, n)) shift z z' r r' :
  (forall i, 0 <= w 0 i) -> 0 <= shift -> PositiveMass w X shift ->
  MinimalResidual w X Y shift z r -> MinimalResidual w X Y shift z' r' ->
  r <= r' + `|z - z'|.
Proof.
move=> Hw Hs Hp [H0 [L _]] [H0' [_ [v [Nv Av]]]].
set q := `|z - z'|; have Hq : 0 <= q by apply: normr_ge0.
have Hm := Hp v Nv.
have Hsm : size_of w X v <= mass w X shift v by rewrite /mass ler_addl mulr_ge0 // norm2_ge0.
have [Zq|Nq] := eqVneq q 0.
  have Ez : z = z' by apply/eqP; rewrite -subr_eq0 -normr_eq0 -/q Zq.
  by rewrite Zq addr0; apply: sqr_le => //; rewrite -(ler_pmul2r Hm) -Av -Ez.
have Hq0 : 0 < q by rewrite lt_neqAle eq_sym Nq.
have [Zr|Nr] := eqVneq r' 0.
  rewrite Zr add0r; apply: sqr_le => //; rewrite -(ler_pmul2r Hm); apply: le_trans (L v) _.
  have Z : defect w X Y z' v = 0 by rewrite Av Zr expr0n /= mul0r.
  have -> : defect w X Y z v = q ^+ 2 * size_of w X v.
    rewrite /defect /size_of mulr_sumr; apply: eq_bigr => i _.
    have P k : true -> 0 <= w 0 k * `|(\sum_j Y k j * v j 0) - z' * (\sum_j X k j * v j 0)| ^+ 2.
      by move=> _; rewrite mulr_ge0 ?exprn_ge0.
    have /eqP := psumr_eq0P P Z (i := i) isT; rewrite mulf_eq0 => /orP [/eqP ->|]; first by rewrite !mul0r mulr0.
    rewrite expf_eq0 /= normr_eq0 subr_eq0 => /eqP ->.
    by rewrite -mulrBl normrM distrC exprMn mulrCA.
  by rewrite ler_wpmul2l // exprn_ge0.
have Hr0 : 0 < r' by rewrite lt_neqAle eq_sym Nr.
have Hpq : 0 < r' * q by rewrite mulr_gt0.
apply: sqr_le; rewrite ?addr_ge0 // -(ler_pmul2r Hm) -(ler_pmul2l Hpq).
apply: le_trans (ler_wpmul2l (ltW Hpq) (L v)) _.
have := @defect_split s n w X Y z z' r' v Hw H0'; rewrite -/q => HH; apply: le_trans HH _; rewrite Av.
have -> : r' * q * ((r' + q) ^+ 2 * mass w X shift v)
  = (r' + q) * (q * (r' ^+ 2 * mass w X shift v) + r' * (q ^+ 2 * mass w X shift v)) by exact: ring_pq.
rewrite ler_wpmul2l ?addr_ge0 // ler_add2l ler_wpmul2l // ler_wpmul2l // exprn_ge0 //.
Qed.


(** ** reduced rank, grids *)
Section More.
Variable n : nat.
Variables (eigh : 'M[C]_n.+1 -> 'rV[C]_n.+1 * 'M[C]_n.+1) (eigs : 'M[C]_n.+1 -> option (seq (C * 'cV[C]_n.+1))).

Lemma numerator_swap s (X Y : 'M[C]_(s, n.+1)) z :
  numerator (full_gram 1 None X X) (full_gram 1 None Y X) (full_gram 1 None Y Y) z
  = numerator (full_gram 1 None X X) (full_gram 1 None X Y) (full_gram 1 None Y Y) z^*.
Proof. rewrite /numerator !gram_tr conjCK norm_conjC; congr (_ + _); exact: addrAC. Qed.

Theorem reduced_minimal s (X Y : 'M[C]_(n.+1, s)) reg z :
  let: (G, G_dash, R) := reduced_grams X Y in
  let SQ := sq_matrix eigh G reg in
  let shift := frobenius G * reg in
  RealData X -> RealData Y -> PositiveMass (const_mx 1) X^T shift ->
  EighOf (g_adapt G reg) (eigh (g_adapt G reg)) ->
  EigsOf (SQ *m numerator G G_dash R z *m SQ) (eigs (SQ *m numerator G G_dash R z *m SQ)) ->
  exists r v, at_point eigh eigs (reduced_grams X Y) reg z = Value (Some r, v) /\
              MinimalResidual (const_mx 1) X^T Y^T shift z r.
Proof.
rewrite reduced_full.
set G := full_gram 1 None X^T X^T => SQ shift HX HY Hp He Hs.
have T (M : 'M[C]_(n.+1, s)) : RealData M -> RealData M^T by move=> HM i j; rewrite mxE.
have E : Weights 1 (None : option 'rV[C]_s) = const_mx 1 by apply/matrixP => i j; rewrite !mxE invr1.
have Hw i : 0 <= Weights 1 (None : option 'rV[C]_s) 0 i by rewrite E mxE ler01.
rewrite numerator_swap in Hs.
have Hp' : PositiveMass (Weights 1 (None : option 'rV[C]_s)) X^T (frobenius G * reg) by rewrite E.
have [r [v [H1 H2 _]]] := point_minimal (T _ HX) (T _ HY) Hw Hp' He Hs.
exists r, v; split; first by rewrite /at_point numerator_swap -[RHS]H1.
rewrite -[z]conjCK; apply: minimal_conj; [exact: T|exact: T|by rewrite -E].
Qed.

Lemma on_grid_spec g reg (grid : seq C) (P : C -> option C * 'cV[C]_n.+1 -> Prop) :
  (forall z, List.In z grid -> exists o, at_point eigh eigs g reg z = Value o /\ P z o) ->
  exists l, on_grid eigh eigs g reg grid = Value l /\ List.Forall2 P grid l.
Proof.
elim: grid => [|z zs IH] H /=; first by exists [::]; split=> //; constructor.
have [o [-> Po]] := H z (or_introl erefl).
have [l [-> Pl]] := IH (fun y Hy => H y (or_intror Hy)).
by exists (o :: l); split=> //; constructor.
Qed.

Lemma on_grid_two g reg (grid : seq C) z p q l :
  let: (G, G_dash, R) := g in
  let SQ := sq_matrix eigh G reg in
  (forall y, List.In y grid -> exists o, at_point eigh eigs g reg y = Value o) ->
  eigs (SQ *m numerator G G_dash R z *m SQ) = Some (p :: q :: l) ->
  forall rest, on_grid eigh eigs g reg (grid ++ z :: rest) = ValueErr.
Proof.
case: g => [[G G_dash] R] SQ H E rest; elim: grid H => [|y ys IH] H /=.
  by rewrite -/SQ E; case: p {E}.
have [o Ho] := H y (or_introl erefl); move: Ho; rewrite /at_point /= => ->.
by have := IH (fun x Hx => H x (or_intror Hx)); rewrite /at_point /= => ->.
Qed.

End More.
End Proofs.
