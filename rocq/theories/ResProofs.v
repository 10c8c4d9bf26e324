From mathcomp Require Import all_ssreflect all_algebra.
From Verif Require Import RingTac LinModel LinSpec ResModel ResSpec.
Import Order.Theory GRing.Theory Num.Theory.
Set Implicit Arguments.
Unset Strict Implicit.
Unset Printing Implicit Defensive.
Local Open Scope ring_scope.

Section Ring.
Variable R : comRingType.
Add Ring RRing : (rt_theory R).
Lemma ring1 (x y w : R) : x * (y * w) = w * (x * y). Proof. mring R. Qed.
Lemma ring2 (a b w x y : R) : a * (w * (x * y)) * b = w * (x * a * (y * b)). Proof. mring R. Qed.
Lemma ring3 (w a ac b bc l lc : R) :
  w * (bc * b) - l * (w * (bc * a)) - lc * (w * (ac * b)) + l * lc * (w * (ac * a))
  = w * ((b - l * a) * (bc - lc * ac)).
Proof. mring R. Qed.
Lemma ring4 (a x v : R) : a * x * v = x * (a * v). Proof. mring R. Qed.
Lemma ring5 (w x y z : R) : w * (x * y) * z = w * (x * (y * z)). Proof. mring R. Qed.
End Ring.

Section Proofs.
Variable C : numClosedFieldType.

Definition ev s n (X : 'M[C]_(s, n)) (v : 'cV[C]_n) (i : 'I_s) : C := \sum_k X i k * v k 0.

Lemma gramE s n p N (w : option 'rV[C]_s) (X : 'M[C]_(s, n)) (Y : 'M[C]_(s, p)) i j :
  full_gram N w X Y i j = \sum_k Weights N w 0 k * (X k i * Y k j).
Proof.
case: w => [w|] /=; rewrite !mxE ?mulr_sumr; apply: eq_bigr => k _; rewrite !mxE //; exact: ring1.
Qed.

Lemma quadE n (M : 'M[C]_n) (v : 'cV[C]_n) : quad M v = \sum_i \sum_j (v i 0)^* * M i j * v j 0.
Proof.
rewrite /quad mxE exchange_big /=; apply: eq_bigr => j _; rewrite mxE mulr_suml; apply: eq_bigr => i _.
by rewrite !mxE.
Qed.

Lemma conj_ev s n (X : 'M[C]_(s, n)) v i : RealData X -> (ev X v i)^* = \sum_k X i k * (v k 0)^*.
Proof. by move=> HX; rewrite /ev rmorph_sum; apply: eq_bigr => k _; rewrite rmorphM /= (conj_Creal (HX _ _)). Qed.

Lemma quad_gram s n N (w : option 'rV[C]_s) (X Y : 'M[C]_(s, n)) v : RealData X ->
  quad (full_gram N w X Y) v = \sum_i Weights N w 0 i * ((ev X v i)^* * ev Y v i).
Proof.
move=> HX; rewrite quadE.
under eq_bigr => i _ do under eq_bigr => j _ do rewrite gramE mulr_sumr mulr_suml.
under eq_bigr => i _ do rewrite exchange_big /=.
rewrite exchange_big /=; apply: eq_bigr => k _.
rewrite conj_ev // /ev mulr_suml mulr_sumr; apply: eq_bigr => i _.
rewrite mulr_sumr mulr_sumr; apply: eq_bigr => j _; exact: ring2.
Qed.

Lemma quadD n (A B : 'M[C]_n) v : quad (A + B) v = quad A v + quad B v.
Proof. by rewrite /quad mulmxDr mulmxDl mxE. Qed.
Lemma quadZ n c (A : 'M[C]_n) v : quad (c *: A) v = c * quad A v.
Proof. by rewrite /quad -scalemxAr -scalemxAl mxE. Qed.
Lemma quadN n (A : 'M[C]_n) v : quad (- A) v = - quad A v.
Proof. by rewrite /quad mulmxN mulNmx mxE. Qed.

Lemma gram_tr s n p N (w : option 'rV[C]_s) (X : 'M[C]_(s, n)) (Y : 'M[C]_(s, p)) :
  (full_gram N w X Y)^T = full_gram N w Y X.
Proof. by apply/matrixP => i j; rewrite mxE !gramE; apply: eq_bigr => k _; rewrite [X k j * _]mulrC. Qed.

Lemma quad_size s n N (w : option 'rV[C]_s) (X : 'M[C]_(s, n)) v : RealData X ->
  quad (full_gram N w X X) v = size_of (Weights N w) X v.
Proof. by move=> HX; rewrite quad_gram //; apply: eq_bigr => i _; rewrite normCK [_^* * _]mulrC. Qed.

Lemma quad_defect s n N (w : option 'rV[C]_s) (X Y : 'M[C]_(s, n)) lam v : RealData X -> RealData Y ->
  quad (numerator (full_gram N w X X) (full_gram N w X Y) (full_gram N w Y Y) lam) v
  = defect (Weights N w) X Y lam v.
Proof.
move=> HX HY; rewrite /numerator !quadD !quadN !quadZ gram_tr !quad_gram // /defect.
rewrite !mulr_sumr -!sumrN -!big_split /=; apply: eq_bigr => i _.
rewrite -!/(ev _ _ _) !normCK rmorphB rmorphM /=; exact: ring3.
Qed.

Lemma size_ge0 s n (w : 'rV[C]_s) (X : 'M[C]_(s, n)) v : (forall i, 0 <= w 0 i) -> 0 <= size_of w X v.
Proof. by move=> H; apply: sumr_ge0 => i _; rewrite mulr_ge0 // exprn_ge0. Qed.
Lemma defect_ge0 s n (w : 'rV[C]_s) (X Y : 'M[C]_(s, n)) lam v : (forall i, 0 <= w 0 i) -> 0 <= defect w X Y lam v.
Proof. by move=> H; apply: sumr_ge0 => i _; rewrite mulr_ge0 // exprn_ge0. Qed.

Lemma ReK (x : C) : 0 <= x -> 'Re x = x.
Proof. by move=> H; apply/Creal_ReP; apply: ger0_real. Qed.

Lemma tiny_gt0 : 0 < tiny C.
Proof. by rewrite /tiny invr_gt0 exprn_gt0 // ltr0n. Qed.

Lemma residual_full s n N (w : option 'rV[C]_s) (X Y : 'M[C]_(s, n)) lam v :
  RealData X -> RealData Y -> (forall i, 0 <= Weights N w 0 i) ->
  residual (full_gram N w X X) (full_gram N w X Y) (full_gram N w Y Y) lam v
  = if tiny C < size_of (Weights N w) X v
    then Some (sqrtC (defect (Weights N w) X Y lam v / size_of (Weights N w) X v)) else None.
Proof.
move=> HX HY Hw; rewrite /residual quad_size // quad_defect //.
by rewrite !ReK ?size_ge0 ?defect_ge0 // ger0_norm ?size_ge0.
Qed.

(** reduced *)
Lemma reduced_full s n (X Y : 'M[C]_(n, s)) :
  reduced_grams X Y = (full_gram 1 None X^T X^T, full_gram 1 None Y^T X^T, full_gram 1 None Y^T Y^T).
Proof. by rewrite /reduced_grams /= !trmxK invr1 !scale1r. Qed.

Lemma residual_reduced s n (X Y : 'M[C]_(n, s)) lam v :
  RealData X -> RealData Y ->
  residual (reduced_grams X Y).1.1 (reduced_grams X Y).1.2 (reduced_grams X Y).2 lam v
  = if tiny C < size_of (const_mx 1) X^T v
    then Some (sqrtC (defect (const_mx 1) X^T Y^T lam^* v / size_of (const_mx 1) X^T v)) else None.
Proof.
move=> HX HY; rewrite reduced_full /=.
have E : Weights 1 (None : option 'rV[C]_s) = const_mx 1 by apply/matrixP => i j; rewrite !mxE invr1.
have H : residual (full_gram 1 None X^T X^T) (full_gram 1 None Y^T X^T) (full_gram 1 None Y^T Y^T) lam v
  = residual (full_gram 1 None X^T X^T) (full_gram 1 None X^T Y^T) (full_gram 1 None Y^T Y^T) lam^* v.
  rewrite /residual.
  suff -> : numerator (full_gram 1 None X^T X^T) (full_gram 1 None Y^T X^T) (full_gram 1 None Y^T Y^T) lam
    = numerator (full_gram 1 None X^T X^T) (full_gram 1 None X^T Y^T) (full_gram 1 None Y^T Y^T) lam^* by [].
  rewrite /numerator !gram_tr conjCK norm_conjC; congr (_ + _); exact: addrAC.
have T (M : 'M[C]_(n, s)) : RealData M -> RealData M^T by move=> HM i j; rewrite mxE; apply: HM.
rewrite -/(full_gram _ _ _ _) H residual_full ?E //; [exact: T|exact: T|by move=> i; rewrite mxE ler01].
Qed.

(** exact data *)
Lemma ev_exact s n (X Y : 'M[C]_(s, n)) A v i : ExactData X Y A -> ev Y v i = ev X (A^T *m v) i.
Proof.
move=> H; rewrite /ev; under eq_bigr => k _ do rewrite H mulr_suml.
rewrite exchange_big /=; apply: eq_bigr => k _; rewrite mxE mulr_sumr; apply: eq_bigr => j _.
by rewrite mxE; exact: ring4.
Qed.

Lemma leftP n (A : 'M[C]_n) lam v : LeftPair A lam v <-> A^T *m v = lam *: v.
Proof.
split=> [H|H j].
  apply/matrixP => i j; rewrite [j]ord1 !mxE -H; apply: eq_bigr => k _; by rewrite mxE mulrC.
have := congr1 (fun M : 'cV_n => M j 0) H; rewrite !mxE => <-; apply: eq_bigr => k _; by rewrite mxE mulrC.
Qed.

Lemma rightP n (A : 'M[C]_n) lam v : RightPair A lam v <-> A *m v = lam *: v.
Proof.
split=> [H|H i].
  by apply/matrixP => i j; rewrite [j]ord1 !mxE -H.
by have := congr1 (fun M : 'cV_n => M i 0) H; rewrite !mxE => <-.
Qed.

Lemma defect_eq0 s n (w : 'rV[C]_s) (X Y : 'M[C]_(s, n)) A lam v :
  (forall i, 0 < w 0 i) -> Spanning X -> ExactData X Y A ->
  defect w X Y lam v = 0 <-> LeftPair A lam v.
Proof.
move=> Hw HS HE; rewrite leftP.
have Ei i : (\sum_k Y i k * v k 0) - lam * (\sum_k X i k * v k 0) = ev X (A^T *m v - lam *: v) i.
  rewrite -!/(ev _ _ _) (ev_exact _ _ HE) /ev mulr_sumr -sumrB; apply: eq_bigr => k _.
  by rewrite !mxE mulrBr; congr (_ - _); rewrite mulrCA.
have -> : defect w X Y lam v = \sum_i w 0 i * `|ev X (A^T *m v - lam *: v) i| ^+ 2.
  by apply: eq_bigr => i _; rewrite Ei.
split=> [H|->]; last first.
  rewrite subrr big1 // => i _; rewrite /ev big1 ?normr0 ?expr0n ?mulr0 // => k _; by rewrite mxE mulr0.
have P i : true -> 0 <= w 0 i * `|ev X (A^T *m v - lam *: v) i| ^+ 2.
  by move=> _; rewrite mulr_ge0 ?exprn_ge0 // ltW.
have Z := psumr_eq0P P H.
apply/eqP; rewrite -subr_eq0; apply/eqP; apply: HS => i.
have /eqP := Z i isT; rewrite mulf_eq0 gt_eqF //= expf_eq0 /= normr_eq0 => /eqP; exact.
Qed.

(** the identified system *)
Lemma ev_mx0 s n p (X : 'M[C]_(s, n)) (D : 'M[C]_(n, p)) : Spanning X -> X *m D = 0 -> D = 0.
Proof.
move=> HS H; apply/matrixP => i j.
have E : col j D = 0.
  apply: HS => k; have := congr1 (fun M : 'M_(s, p) => M k j) H; rewrite !mxE => E; rewrite -[RHS]E.
  by apply: eq_bigr => l _; rewrite mxE.
by have := congr1 (fun M : 'cV_n => M i 0) E; rewrite !mxE.
Qed.

Lemma system_recovered lstsq s n N (w : option 'rV[C]_s) (X Y : 'M[C]_(s, n)) A :
  solves_consistent lstsq -> RealData X -> (forall i, 0 < Weights N w 0 i) -> Spanning X -> ExactData X Y A ->
  full_system_matrix lstsq N w X Y = A.
Proof.
move=> Hl HX Hw HS HE; rewrite /full_system_matrix; set Z := lstsq _ _ _ _ _.
have EY : Y = X *m A^T.
  by apply/matrixP => i j; rewrite HE mxE; apply: eq_bigr => k _; rewrite mxE mulrC.
have Lin (D : 'M[C]_n) : full_gram N w X X *m D = full_gram N w X (X *m D).
  apply/matrixP => i j; rewrite mxE gramE.
  under eq_bigr => k _ do rewrite gramE mulr_suml.
  rewrite exchange_big /=; apply: eq_bigr => k _; rewrite mxE !mulr_sumr; apply: eq_bigr => l _; exact: ring5.
have HZ : full_gram N w X X *m Z = full_gram N w X Y.
  by apply: (Hl _ _ _ _ _ A^T); rewrite EY Lin.
have H0 : full_gram N w X X *m (Z - A^T) = 0 by rewrite mulmxBr HZ Lin EY subrr.
suff : Z - A^T = 0 by move/eqP; rewrite subr_eq0 => /eqP ->; rewrite trmxK.
set D := Z - A^T in H0 *.
apply/matrixP => i j; suff E : col j D = 0 by have := congr1 (fun M : 'cV_n => M i 0) E; rewrite !mxE.
have Q : quad (full_gram N w X X) (col j D) = 0.
  by rewrite /quad {2}colE -!mulmxA (mulmxA (full_gram N w X X)) H0 mul0mx mulmx0 mxE.
rewrite quad_size // in Q; apply: HS => k.
have P l : true -> 0 <= Weights N w 0 l * `|\sum_m X l m * col j D m 0| ^+ 2.
  by move=> _; rewrite mulr_ge0 ?exprn_ge0 // ltW.
have Z0 := psumr_eq0P P Q; have /eqP := Z0 k isT; rewrite mulf_eq0 gt_eqF //= expf_eq0 /= normr_eq0 => /eqP; exact.
Qed.

(** the filter *)
Lemma kept_spec (q : seq (option C) -> C -> option C) n (G G' R : 'M[C]_n) f pairs l :
  remove_spectral_pollution q G G' R f pairs = Some l ->
  exists b, bound q f (map (fun p => residual G G' R p.1 p.2) pairs) = Some b /\
    perm_eq l [seq p <- pairs | leq_res (residual G G' R p.1 p.2) b] /\ l <> [::] /\
    (~~ sort_res f -> l = [seq p <- pairs | leq_res (residual G G' R p.1 p.2) b]) /\
    (sort_res f -> l = sort (fun p p' => leq_res (residual G G' R p.1 p.2) (residual G G' R p'.1 p'.2))
                     [seq p <- pairs | leq_res (residual G G' R p.1 p.2) b]).
Proof.
rewrite /remove_spectral_pollution; case: bound => [b|//]; case: ifP => // _.
case E : [seq p <- pairs | _] => [|p t] // [<-]; exists b; split=> //; rewrite E.
split; first by case: sort_res => //; rewrite perm_sort.
split; last by case: sort_res.
case: sort_res => //; by move/(congr1 size); rewrite size_sort.
Qed.

Lemma residual_zero s n N (w : option 'rV[C]_s) (X Y : 'M[C]_(s, n)) A lam v :
  RealData X -> RealData Y -> (forall i, 0 < Weights N w 0 i) -> Spanning X -> ExactData X Y A ->
  tiny C < size_of (Weights N w) X v ->
  residual (full_gram N w X X) (full_gram N w X Y) (full_gram N w Y Y) lam v = Some 0 <-> LeftPair A lam v.
Proof.
move=> HX HY Hw HS HE Ht; rewrite residual_full // ?Ht; last by move=> i; apply: ltW.
have H0 : 0 < size_of (Weights N w) X v := lt_trans tiny_gt0 Ht.
rewrite -(defect_eq0 lam v Hw HS HE); split=> [[/eqP]|->]; last by rewrite mul0r sqrtC0.
by rewrite sqrtC_eq0 mulf_eq0 invr_eq0 (gt_eqF H0) orbF => /eqP.
Qed.

Lemma in_In (T : eqType) (x : T) l : List.In x l <-> x \in l.
Proof.
elim: l => [|y l IH] /=; first by rewrite in_nil.
rewrite in_cons; split=> [[->|/IH ->]|/orP [/eqP ->|/IH H]]; rewrite ?eqxx ?orbT //; [by left|by right].
Qed.

Lemma threshold_kept q n (G G' R : 'M[C]_n) t pairs : t != 0 ->
  let kept := [seq p <- pairs | leq_res (residual G G' R p.1 p.2) (Some t)] in
  remove_spectral_pollution q G G' R (Filter (Some t) None None false) pairs
  = if kept is [::] then None else Some kept.
Proof.
move=> Ht kept; rewrite /remove_spectral_pollution /bound /= (negbTE Ht) -/kept.
case: ifP => [H|//]; case E : kept => [|p l] //; exfalso.
have : p \in kept by rewrite E mem_head.
rewrite mem_filter => /andP [L Hp]; move/negP: H; case.
apply/hasP; exists (residual G G' R p.1 p.2); last by move: L; case: residual.
by apply/mapP; exists p.
Qed.

Lemma no_pair_removed q n (G G' R : 'M[C]_n) t pairs : 0 < t -> pairs <> [::] ->
  (forall p, p \in pairs -> residual G G' R p.1 p.2 = Some 0) ->
  remove_spectral_pollution q G G' R (Filter (Some t) None None false) pairs = Some pairs.
Proof.
move=> Ht Hp H; rewrite threshold_kept ?gt_eqF //.
have -> : [seq p <- pairs | leq_res (residual G G' R p.1 p.2) (Some t)] = pairs.
  by apply/all_filterP; apply/allP => p /H -> /=; apply: ltW.
by case: pairs Hp {H}.
Qed.

(** reduced rank *)
Lemma reduced_left s n (X Y : 'M[C]_(n, s)) A lam v :
  RealData X -> RealData Y -> Y = A *m X -> LeftPair A lam v -> tiny C < size_of (const_mx 1) X^T v ->
  residual (reduced_grams X Y).1.1 (reduced_grams X Y).1.2 (reduced_grams X Y).2 lam v = Some `|lam - lam^*|.
Proof.
move=> HX HY HE HL Ht; rewrite residual_reduced // Ht.
have H0 : 0 < size_of (const_mx 1) X^T v := lt_trans tiny_gt0 Ht.
have D : ExactData X^T Y^T A.
  by move=> i j; rewrite HE !mxE; apply: eq_bigr => k _; rewrite !mxE.
have -> : defect (const_mx 1) X^T Y^T lam^* v = `|lam - lam^*| ^+ 2 * size_of (const_mx 1) X^T v.
  rewrite /size_of mulr_sumr; apply: eq_bigr => i _; rewrite !mxE !mul1r -exprMn -normrM.
  rewrite -!/(ev _ _ _) (ev_exact _ _ D); move/leftP: HL => ->.
  suff -> : ev X^T (lam *: v) i = lam * ev X^T v i by rewrite -mulrBl.
  by rewrite /ev mulr_sumr; apply: eq_bigr => k _; rewrite [(lam *: v) k 0]mxE mulrCA.
by rewrite mulfK ?gt_eqF // sqrCK.
Qed.

Lemma conj_mxM m n p (M : 'M[C]_(m, n)) (L : 'M[C]_(n, p)) : conj_mx (M *m L) = conj_mx M *m conj_mx L.
Proof. exact: map_mxM. Qed.

Lemma conj_real m n (M : 'M[C]_(m, n)) : RealData M -> conj_mx M = M.
Proof. by move=> H; apply/matrixP => i j; rewrite mxE conj_Creal. Qed.

Lemma sqnorm_eq0 n (u : 'cV[C]_n) : (conj_mx u)^T *m u = 0 -> u = 0.
Proof.
move=> Z; apply/matrixP => i j; rewrite [j]ord1 [RHS]mxE.
have : \sum_k `|u k 0| ^+ 2 = 0.
  have := congr1 (fun M : 'M_1 => M 0 0) Z; rewrite !mxE => E; rewrite -[RHS]E; apply: eq_bigr => k _.
  by rewrite !mxE normCK mulrC.
have P k : true -> 0 <= `|u k 0| ^+ 2 by move=> _; apply: exprn_ge0.
move=> E; have Z1 := psumr_eq0P P E; have /eqP := Z1 i isT; by rewrite expf_eq0 /= normr_eq0 => /eqP.
Qed.

Lemma normal_pair n (A : 'M[C]_n) lam v : RealData A -> A *m A^T = A^T *m A -> RightPair A lam v ->
  LeftPair A lam^* v.
Proof.
move=> HA HN /rightP HR; apply/leftP; apply/eqP; rewrite -subr_eq0; apply/eqP.
set w := _ - _.
have Ew : w = (A^T - lam^*%:M) *m v by rewrite mulmxBl mul_scalar_mx.
have Z : (conj_mx w)^T *m w = 0.
  have Ec : conj_mx (A^T - lam^*%:M) = A^T - lam%:M.
    by rewrite /conj_mx map_mxB -map_trmx -/(conj_mx A) conj_real // map_scalar_mx /= conjCK.
  have ET : (A^T - lam%:M)^T = A - lam%:M by rewrite linearB /= trmxK tr_scalar_mx.
  rewrite {1}Ew conj_mxM trmx_mul Ec ET -mulmxA.
  have EB : (A - lam%:M) *m w = (A^T - lam^*%:M) *m ((A - lam%:M) *m v).
    rewrite Ew !mulmxA; congr (_ *m v).
    rewrite !(mulmxBl, mulmxBr) !mul_scalar_mx !mul_mx_scalar HN !scale_scalar_mx [lam * _]mulrC.
    by rewrite !opprB -!addrA; congr (_ + _); rewrite addrCA [RHS]addrC -addrA.
  have E0 : (A - lam%:M) *m v = 0 by rewrite mulmxBl HR mul_scalar_mx subrr.
  by rewrite EB E0 !mulmx0.
exact: sqnorm_eq0.
Qed.

Lemma reduced_normal s n (X Y : 'M[C]_(n, s)) A lam v :
  RealData X -> RealData Y -> RealData A -> A *m A^T = A^T *m A -> Y = A *m X -> RightPair A lam v ->
  tiny C < size_of (const_mx 1) X^T v ->
  residual (reduced_grams X Y).1.1 (reduced_grams X Y).1.2 (reduced_grams X Y).2 lam v = Some 0.
Proof.
move=> HX HY HA HN HE HR Ht; rewrite residual_reduced // Ht.
have D : ExactData X^T Y^T A.
  by move=> i j; rewrite HE !mxE; apply: eq_bigr => k _; rewrite !mxE.
suff -> : defect (const_mx 1) X^T Y^T lam^* v = 0 by rewrite mul0r sqrtC0.
rewrite /defect big1 // => i _; rewrite -!/(ev _ _ _) (ev_exact _ _ D).
have /leftP -> := normal_pair HA HN HR.
suff -> : ev X^T (lam^* *: v) i = lam^* * ev X^T v i by rewrite subrr normr0 expr0n mulr0.
by rewrite /ev mulr_sumr; apply: eq_bigr => k _; rewrite [(_ *: v) k 0]mxE mulrCA.
Qed.

(** keep_n *)
Definition is_res (r : option C) : bool := if r is Some x then 0 <= x else true.

Lemma leq_res_total : {in is_res &, total (@leq_res C)}.
Proof. by move=> [x|] [y|] //= Hx Hy; apply: real_leVge; apply: ger0_real. Qed.

Lemma leq_res_trans : transitive (@leq_res C).
Proof. by move=> [y|] [x|] [z|] //=; apply: le_trans. Qed.

Lemma leq_res_refl : reflexive (@leq_res C).
Proof. by case=> [x|] //=. Qed.

Lemma count_nth (T : Type) (x0 : T) (P : pred T) (s : seq T) k : (k <= size s)%N ->
  (forall i, (i < k)%N -> P (nth x0 s i)) -> (k <= count P s)%N.
Proof.
move=> Hk H; rewrite -[s in count P s](cat_take_drop k) count_cat.
have A : all P (take k s).
  by apply/(all_nthP x0) => i; rewrite size_takel // => Hi; rewrite nth_take //; apply: H.
by move: A; rewrite all_count => /eqP ->; rewrite size_takel // leq_addr.
Qed.

Lemma count_nth0 (T : Type) (x0 : T) (P : pred T) (s : seq T) k :
  (forall i, (k <= i < size s)%N -> ~~ P (nth x0 s i)) -> (count P s <= k)%N.
Proof.
move=> H; rewrite -[s in count P s](cat_take_drop k) count_cat.
have -> : count P (drop k s) = 0%N.
  apply/eqP; rewrite -leqn0 leqNgt -has_count; apply/negP => /(has_nthP x0) [i].
  rewrite size_drop nth_drop => Hi; apply/negP; apply: H.
  by rewrite leq_addr /= -ltn_subRL.
by rewrite addn0 (leq_trans (count_size _ _)) // size_take; case: ltnP => // /ltnW.
Qed.

Lemma kth_smallest (r : seq (option C)) k : all is_res r -> (0 < k <= size r)%N ->
  let b := nth None (sort (@leq_res C) r) k.-1 in
  (k <= count (fun x => leq_res x b) r)%N /\
  (forall x, leq_res x b -> (count (fun y => ~~ leq_res x y) r < k)%N).
Proof.
move=> Hr /andP [H0 Hk] b.
have S := sort_sorted_in leq_res_total Hr.
have M i j : (i <= j)%N -> (j < size r)%N ->
    leq_res (nth None (sort (@leq_res C) r) i) (nth None (sort (@leq_res C) r) j).
  move=> Hij Hj; apply: (sorted_leq_nth leq_res_trans leq_res_refl None S) => //; rewrite inE size_sort //.
  exact: leq_ltn_trans Hij Hj.
have Cn P : count P r = count P (sort (@leq_res C) r) by apply/esym/permP; rewrite perm_sort.
split=> [|x Hx]; rewrite Cn.
  apply: (@count_nth _ None); first by rewrite size_sort.
  by move=> i Hi; apply: M; [rewrite -ltnS prednK|rewrite prednK].
rewrite -(prednK H0) ltnS; apply: (@count_nth0 _ None) => i /andP [H1 H2]; rewrite negbK.
by apply: leq_res_trans Hx _; apply: M => //; move: H2; rewrite size_sort.
Qed.

Lemma residual_is_res s n N (w : option 'rV[C]_s) (X Y : 'M[C]_(s, n)) lam v :
  RealData X -> RealData Y -> (forall i, 0 <= Weights N w 0 i) ->
  is_res (residual (full_gram N w X X) (full_gram N w X Y) (full_gram N w Y Y) lam v).
Proof.
move=> HX HY Hw; rewrite residual_full //; case: ifP => // H /=.
by rewrite sqrtC_ge0 divr_ge0 ?defect_ge0 ?size_ge0.
Qed.

End Proofs.
