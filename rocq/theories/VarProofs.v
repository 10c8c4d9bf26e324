(** * Proofs about variable bandwidth diffusion maps. *)

From mathcomp Require Import all_ssreflect all_algebra.
From Verif Require Import LinModel LinProofs KernModel KernSpec KernProofs FieldTac VarModel VarSpec.
Import Order.Theory GRing.Theory Num.Theory.
Set Implicit Arguments.
Unset Strict Implicit.
Unset Printing Implicit Defensive.
Local Open Scope ring_scope.

Section Proofs.
Variable R : rcfType.

(** ** Nearest neighbours *)

Lemma nearest_sorted n (D : 'M[R]_n) (i : 'I_n) : Distances D ->
  exists t : seq 'I_n,
    [/\ sort <=%R [seq Num.sqrt (D i j) | j <- enum 'I_n] = 0 :: [seq Num.sqrt (D i j) | j <- t],
        sorted <=%R [seq Num.sqrt (D i j) | j <- t] & perm_eq (i :: t) (enum 'I_n)].
Proof.
move=> [HS H0 HP].
set f := fun j => Num.sqrt (D i j).
have Hf0 j : j != i -> 0 < f j by move=> H; rewrite /f sqrtr_gt0; apply: HP; rewrite eq_sym.
have E : sort <=%R (map f (enum 'I_n)) = map f (sort (relpre f <=%R) (enum 'I_n)) by rewrite sort_map.
set t := sort (relpre f <=%R) (enum 'I_n) in E.
have Ht : perm_eq t (enum 'I_n) by rewrite perm_sort.
have Hs : sorted <=%R (map f t) by rewrite -E; apply: sort_sorted; exact: le_total.
have Hi : i \in t by rewrite (perm_mem Ht) mem_enum.
have Hu : uniq t by rewrite (perm_uniq Ht) enum_uniq.
case: t E Ht Hs Hi Hu => [|a t] //= E Ht Hs Hi Hu.
have Ea : a = i.
  apply/eqP; move: Hi; rewrite inE; case/orP=> [/eqP-> //|Hi].
  case/boolP: (a == i) => // Hne; exfalso.
  move: Hs; rewrite (path_sortedE le_trans) => /andP[/allP Ha _].
  have := Ha (f i) (map_f f Hi); rewrite {2}/f H0 sqrtr0 leNgt => /negP; apply; exact: Hf0.
exists t; split.
- by rewrite E Ea /f H0 sqrtr0.
- exact: path_sorted Hs.
- by rewrite -Ea.
Qed.

Lemma rho0_nearest n (D : 'M[R]_n) k i : Distances D -> NearestMean D k i (compute_rho0 k D 0 i).
Proof.
move=> HD; have [t [E Hs Hp]] := nearest_sorted i HD; case: HD => HS H0 HP.
have Hnn j : 0 <= D i j.
  by case: (i =P j) => [<-|/eqP H]; [rewrite H0 | apply/ltW/HP].
exists (take k t).
have Hu : uniq (i :: t) by rewrite (perm_uniq Hp) enum_uniq.
have Hsz : size t = n.-1 by have := perm_size Hp; rewrite size_enum_ord /= => /(congr1 predn).
have Hi : i \notin t by case/andP: Hu.
have Hut : uniq t by case/andP: Hu.
split.
- split; first exact: take_uniq.
  by apply: contra Hi => /mem_take.
- by rewrite size_take Hsz.
- move=> l j Hl Hj Hji.
  have Hjt : j \in t.
    have : j \in i :: t by rewrite (perm_mem Hp) mem_enum.
    by rewrite inE (negPf Hji).
  have Hjd : j \in drop k t by move: Hjt; rewrite -{1}(cat_take_drop k t) mem_cat (negPf Hj).
  move: Hs; rewrite -{1}(cat_take_drop k t) map_cat sorted_pairwise; last exact: le_trans.
  rewrite pairwise_cat => /and3P[/allrelP Ha _ _].
  have := Ha _ _ (map_f (fun j => Num.sqrt (D i j)) Hl) (map_f (fun j => Num.sqrt (D i j)) Hjd).
  by rewrite ler_sqrt //; apply: HP; rewrite eq_sym.
- rewrite mxE /= E /= drop0 -map_take /seq_mean !size_map -map_comp big_map; congr (Num.sqrt (_ / _)).
  by apply: eq_bigr => j _ /=; rewrite sqr_sqrtr.
Qed.

Lemma nearest_pos n (D : 'M[R]_n) k i r : Distances D -> (0 < k)%N -> (1 < n)%N ->
  NearestMean D k i r -> 0 < r.
Proof.
move=> [HS H0 HP] Hk Hn [s [[Hu Hi] Hsz _ ->]].
have Hs : (0 < size s)%N by rewrite Hsz leq_min Hk; case: n Hn {D i HS H0 HP s Hu Hi Hsz} => [|[|n]].
rewrite sqrtr_gt0 divr_gt0 // ?ltr0n //.
case: s Hu Hi Hsz Hs => [|a s] // _ Hi _ _.
rewrite big_cons; apply: ltr_paddr.
  rewrite big_seq; apply: sumr_ge0 => j Hj; apply/ltW/HP.
  by apply: contraNneq Hi => ->; rewrite inE Hj orbT.
by apply: HP; move: Hi; rewrite inE negb_or => /andP[].
Qed.

(** ** Symmetric division *)

Lemma half2 (x : R) : (x + x) / 2%:R = x.
Proof. by rewrite -mulr2n -[x *+ 2]mulr_natr mulfK // two_neq0. Qed.

Add Field RField : (ft_theory R).

Lemma sym_div_field (x a b : R) : (b * (x * a) + a * (x * b)) / 2%:R = x * (a * b).
Proof.
have -> : b * (x * a) + a * (x * b) = x * (a * b) + x * (a * b) by mfield R.
exact: half2.
Qed.

Lemma sym_div_some n (M : 'M[R]_n) (v : 'rV[R]_n) : Symmetric M -> (forall i, v 0 i != 0) ->
  exists A, sym_division M v true = Some A /\ forall i j, A i j = M i j / (v 0 i * v 0 j).
Proof.
move=> HS Hv; rewrite /sym_division.
have -> : has_zero v = false by apply/has_zeroPn.
eexists; split; first by [].
by move=> i j; rewrite !mxE (HS j i) invfM sym_div_field.
Qed.

Lemma sym_div_scalar n (M : 'M[R]_n) (v : 'rV[R]_n) a : Symmetric M -> (forall i, v 0 i != 0) ->
  exists A, sym_division_scalar M v a = Some A /\ forall i j, A i j = M i j / (v 0 i * v 0 j) / a.
Proof.
move=> HS Hv; have [A [E HA]] := sym_div_some HS Hv.
rewrite /sym_division_scalar E; eexists; split; first by [].
move=> i j; case: eqP => [->|_]; first by rewrite HA divr1.
by rewrite !mxE HA div1r mulrC.
Qed.

Lemma expon_field (x a b m : R) : a != 0 -> b != 0 -> m != 0 ->
  - x / (a / m * (b / m)) / (2%:R * m ^+ 2) = - (x / (2%:R * a * b)).
Proof. by move=> Ha Hb Hm; mfield R. Qed.

Lemma expon_field4 (x a b e : R) : a != 0 -> b != 0 -> e != 0 ->
  x / (a * b) / (- 4%:R * e) = - (x / (4%:R * e * a * b)).
Proof.
move=> Ha Hb He.
rewrite mulNr invrN mulrN; congr (- _).
by rewrite -mulrA -invfM; congr (_ * _^-1); rewrite mulrC !mulrA.
Qed.

Lemma density_field (p a n s : R) : a != 0 -> n != 0 -> p / (a * n) * s = p / n / a * s.
Proof. by move=> Ha Hn; mfield R. Qed.

(** ** The operator *)

Section Core.
Variable exp : R -> R.
Variable pow : R -> R -> R.
Variable twopi : R.
Hypothesis He : ExpLaw exp.
Hypothesis Hpw : PowLaw pow.
Hypothesis Ht : 0 < twopi.

Lemma core (c : var_cfg R) n k (D : 'M[R]_n) :
  Distances D -> (1 < n)%N -> (0 < k)%N -> 0 < epsilon c ->
  exists (r q : 'I_n -> R) (rho : 'rV[R]_n) (K : 'M[R]_n),
    [/\ forall i, NearestMean D k i (r i),
        Density exp pow (dim c) D r q, Bandwidth pow (beta c) q (rho 0),
        VariableKernel exp pow (epsilon c) (dim c) (alpha c) D (rho 0) K /\ Weights K (rho 0)
      & evaluate exp pow twopi c k D =
          if symmetrize c then
            let: (L, s) := compute_matrix_l_conjugate K rho (row_sums K) in Some (L, Some s)
          else Some (compute_matrix_l c K rho, None)].
Proof.
move=> HD Hn Hk Heps; case: (HD) => HS H0 HP; case: (He) => He0 He1; case: (Hpw) => Hp1 Hp2 Hp3.
have Hn0 : 0 < n%:R :> R by rewrite ltr0n ltnW.
move Erv: (compute_rho0 k D) => rv.
have Hr i : NearestMean D k i (rv 0 i) by rewrite -Erv; exact: rho0_nearest.
have Hrp i : 0 < rv 0 i by apply: nearest_pos (Hr i).
have [i0 _] : exists i0 : 'I_n, true by exists (Ordinal (ltnW Hn)).
have Hsum (f : 'I_n -> R) : (forall i, 0 < f i) -> 0 < \sum_i f i.
  move=> Hf; rewrite (bigD1 i0) //=; apply: ltr_paddr => //.
  by apply: sumr_ge0 => j _; apply/ltW.
have Hmean (v : 'rV[R]_n) : (forall i, 0 < v 0 i) -> 0 < mean v.
  by move=> Hv; rewrite /mean divr_gt0 // Hsum.
have Hm := Hmean _ Hrp; set m := mean rv in Hm.
have HSn : Symmetric (- D) by move=> i j; rewrite !mxE HS.
have Htil : forall i, (map_mx (fun x => x / m) rv) 0 i != 0.
  by move=> i; rewrite mxE mulf_neq0 ?invr_eq0 ?lt0r_neq0.
have [E [EE HE]] := sym_div_scalar (2%:R * m ^+ 2) HSn Htil.
have Eq0 : compute_q0 exp pow twopi c D rv =
    Some (\row_i (pow (twopi * m ^+ 2) (- dim c / 2%:R) / (pow (rv 0 i) (dim c) * n%:R) * \sum_j exp (E i j))).
  by rewrite /compute_q0 -/m EE.
set qv := \row_i _ in Eq0.
have HC : 0 < pow (twopi * m ^+ 2) (- dim c / 2%:R) by apply: Hp1; rewrite mulr_gt0 // exprn_gt0.
have Hq : Density exp pow (dim c) D (rv 0) (qv 0).
  exists (pow (twopi * m ^+ 2) (- dim c / 2%:R) / n%:R); split; first by rewrite divr_gt0.
  move=> i; rewrite mxE density_field ?lt0r_neq0 ?Hp1 //; congr (_ * _).
  apply: eq_bigr => j _; congr exp.
  by rewrite HE !mxE expon_field // lt0r_neq0.
have Hqp i : 0 < qv 0 i.
  rewrite mxE; apply: mulr_gt0; last by apply: Hsum => j; exact: He1.
  by apply: divr_gt0 => //; apply: mulr_gt0 => //; exact: Hp1.
set pv := map_mx (fun x => pow x (beta c)) qv.
have Hpp i : 0 < pv 0 i by rewrite mxE Hp1.
have Hmp := Hmean _ Hpp.
set rho := compute_rho pow c qv.
have Erho i : rho 0 i = (mean pv)^-1 * pow (qv 0 i) (beta c) by rewrite !mxE mulrC.
have Hrhop i : 0 < rho 0 i by rewrite Erho mulr_gt0 ?invr_gt0 ?Hp1.
have Hb : Bandwidth pow (beta c) (qv 0) (rho 0).
  split; first by exists (mean pv)^-1; rewrite invr_gt0.
  rewrite (eq_bigr (fun i => (mean pv)^-1 * pv 0 i)); last by move=> i _; rewrite Erho [in RHS]mxE.
  rewrite -mulr_sumr /mean invf_div -mulrA mulVf ?mulr1 //.
  by rewrite lt0r_neq0 // Hsum.
have HSD : Symmetric D by [].
have Hrn i : rho 0 i != 0 by rewrite lt0r_neq0.
have [E4 [EE4 HE4]] := sym_div_scalar (- 4%:R * epsilon c) HSD Hrn.
pose kk i j := exp (- (D i j / (4%:R * epsilon c * rho 0 i * rho 0 j))).
have Ek i j : exp (E4 i j) = kk i j by rewrite HE4 expon_field4 // lt0r_neq0.
have Eker : compute_kernel_eps_s exp c D rho = Some (map_mx exp E4) by rewrite /compute_kernel_eps_s EE4.
set Ks := map_mx exp E4 in Eker.
have HKs i j : Ks i j = kk i j by rewrite mxE Ek.
have Hkk i j : kk i j = kk j i.
  rewrite /kk HS; congr (exp (- (_ / _))); by rewrite -!mulrA [rho 0 i * _]mulrC.
have HSK : Symmetric Ks by move=> i j; rewrite !HKs Hkk.
set qe := compute_q_eps_s pow c Ks rho.
have Hqe i : qe 0 i = (\sum_j kk i j) / pow (rho 0 i) (dim c).
  by rewrite mxE mulr_suml; apply: eq_bigr => j _; rewrite HKs.
have Hqep i : 0 < qe 0 i by rewrite Hqe divr_gt0 ?Hp1 // Hsum // => j; exact: He1.
have Hva i : (map_mx (fun x => pow x (alpha c)) qe) 0 i != 0 by rewrite mxE lt0r_neq0 ?Hp1.
have [K [EK HK]] := sym_div_some HSK Hva.
exists (rv 0), (qv 0), rho, K; split=> //.
- have HKe i j : K i j = kk i j / (pow (qe 0 i) (alpha c) * pow (qe 0 j) (alpha c)).
    by rewrite HK HKs !mxE.
  split.
    by rewrite /VariableKernel /= => i j; rewrite HKe !Hqe.
  split=> //.
  + by move=> i j; rewrite !HKe Hkk [pow _ _ * _]mulrC.
  + by move=> i j; rewrite HKe divr_gt0 ?mulr_gt0 ?Hp1 // /kk.
- by rewrite /evaluate Erv Eq0 -/rho Eker /compute_kernel_eps_alpha_s -/qe EK.
Qed.

End Core.

Lemma sqrt_inv_sq (r q : R) : 0 < r -> 0 < q ->
  (r * Num.sqrt q)^-1 * (r * Num.sqrt q)^-1 = (r ^+ 2)^-1 * q^-1.
Proof.
move=> Hr Hq; rewrite -invfM -expr2 exprMn sqr_sqrtr ?invfM //; exact: ltW.
Qed.

Lemma unsym_field (s u k x : R) : s != 0 -> u != 0 -> u^-1 * ((s * k * u - x) * s) = s * s * k - x * s / u.
Proof. by move=> Hs Hu; mfield R. Qed.

Section Conj.
Variables (n : nat) (K : 'M[R]_n) (rho : 'rV[R]_n).
Hypothesis HW : Weights K (rho 0).

Lemma weights_sum i : 0 < \sum_j K i j.
Proof.
case: HW => _ H _; rewrite (bigD1 i) //=; apply: ltr_paddr => //.
by apply: sumr_ge0 => j _; apply/ltW.
Qed.

Lemma conjugate_l : exists L s, compute_matrix_l_conjugate K rho (row_sums K) = (L, s) /\
  (forall i, 0 < s 0 i) /\ (forall i, s 0 i * s 0 i = (rho 0 i ^+ 2)^-1 * (\sum_j K i j)^-1) /\
  (forall i j, L i j = s 0 i * K i j * s 0 j - ((rho 0 i ^+ 2)^-1 - 1) *+ (i == j)).
Proof.
case: (HW) => HS Hp Hr.
eexists; eexists; split; first by rewrite /compute_matrix_l_conjugate.
split; [|split].
- by move=> i; rewrite !mxE invr_gt0 mulr_gt0 // sqrtr_gt0 weights_sum.
- by move=> i; rewrite !mxE sqrt_inv_sq // weights_sum.
- move=> i j; rewrite !mxE (HS j i).
  case: (i =P j) => [<-|/eqP E].
    by rewrite eqxx !mulr1n half2 mulrA [_ * K i i]mulrC mulrAC [_ / _]mulrC.
  rewrite eq_sym (negPf E) !mulr0n !subr0.
  set a := (rho 0 i * _)^-1; set b := (rho 0 j * _)^-1.
  rewrite (_ : b * (K i j * a) + a * (K i j * b) = a * K i j * b + a * K i j * b) ?half2 //.
  by mfield R.
Qed.

Lemma conjugate_symmetric L s : compute_matrix_l_conjugate K rho (row_sums K) = (L, s) -> Symmetric L.
Proof. by move=> [<- _] i j; rewrite !mxE addrC. Qed.

(** The operator recovered by the basis change. *)
Lemma unsym_entry L s : compute_matrix_l_conjugate K rho (row_sums K) = (L, s) ->
  forall i j, unsymmetric_kernel L s i j =
    (rho 0 i ^+ 2)^-1 * (K i j / (\sum_j K i j)) - ((rho 0 i ^+ 2)^-1 - 1) *+ (i == j).
Proof.
have [L' [s' [E [Hs [Hss HL]]]]] := conjugate_l; rewrite E => -[<- <-] i j.
have Hj := lt0r_neq0 (Hs j); have Hi := lt0r_neq0 (Hs i).
rewrite /unsymmetric_kernel !mxE HL.
rewrite unsym_field // Hss mulrA; congr (_ - _); first by rewrite mulrAC.
case: (i =P j) => [<-|_]; last by rewrite !mulr0n !mul0r.
by rewrite !mulr1n mulfK.
Qed.

Lemma unsym_generator L s : compute_matrix_l_conjugate K rho (row_sums K) = (L, s) ->
  Generator K (rho 0) (unsymmetric_kernel L s - 1%:M).
Proof.
move=> E v i; have HG := unsym_entry E; move: (unsymmetric_kernel L s) HG => G0 HG; rewrite mxE.
have Hq := lt0r_neq0 (weights_sum i).
rewrite (eq_bigr (fun j => (rho 0 i ^+ 2)^-1 * (\sum_j K i j)^-1 * (K i j * v j 0)
    - (rho 0 i ^+ 2)^-1 *+ (i == j) * v j 0)); last first.
  move=> j _; rewrite !mxE HG; case: (i == j); rewrite ?mulr1n ?mulr0n ?subr0 ?mul0r ?subr0.
    by set a := (rho 0 i ^+ 2)^-1; set S := _^-1; mfield R.
  by set a := (rho 0 i ^+ 2)^-1; set S := _^-1; mfield R.
rewrite sumrB -mulr_sumr [X in _ - X](bigD1 i) //= eqxx mulr1n.
rewrite [X in _ - (_ + X)]big1 ?addr0; last first.
  by move=> j Hj; rewrite eq_sym (negPf Hj) mulr0n mul0r.
set a := (rho 0 i ^+ 2)^-1; set S := (\sum_j K i j)^-1; set T := \sum_j K i j * v j 0.
by mfield R.
Qed.

Lemma generator_const G : Generator K (rho 0) G -> G *m const_mx 1 = 0 :> 'cV[R]_n.
Proof.
move=> H; apply/matrixP => i j; rewrite [j]ord1 H !mxE.
rewrite (eq_bigr (fun j => K i j)); last by move=> l _; rewrite mxE mulr1.
by rewrite divff ?subrr ?mul0r // lt0r_neq0 // weights_sum.
Qed.

(** Eigenvalues of [1 + G] are at most one. *)
Lemma generator_eigen G (v : 'cV[R]_n) e : Generator K (rho 0) G ->
  (1%:M + G) *m v = e *: v -> v != 0 -> e <= 1.
Proof.
move=> HG HE Hv; case: (HW) => HS Hp Hr.
have [i0 Hi0] : exists i0, v i0 0 != 0.
  apply/existsP; apply: contraNT Hv => /existsPn H; apply/eqP/matrixP => i j.
  by rewrite [j]ord1 mxE; apply/eqP; have := H i; rewrite negbK.
pose i := [arg max_(i > i0) `|v i 0|]%O.
have Hmax j : `|v j 0| <= `|v i 0|.
  by rewrite /i; case: Order.TotalTheory.arg_maxP => // a _ Ha; apply: Ha.
have Hvi : v i 0 != 0 by rewrite -normr_gt0 (lt_le_trans _ (Hmax i0)) // normr_gt0.
have Hq := weights_sum i.
have Hrow : (e - 1) * v i 0 * rho 0 i ^+ 2 * (\sum_j K i j) = \sum_j K i j * (v j 0 - v i 0).
  have := congr1 (fun M : 'cV[R]_n => M i 0) HE; rewrite mulmxDl mul1mx mxE HG [RHS]mxE => H.
  rewrite mulrBl mul1r -H addrAC subrr add0r divfK; last by rewrite expf_neq0 // lt0r_neq0.
  rewrite mulrBl divfK ?lt0r_neq0 // mulrC mulr_suml -sumrB.
  by apply: eq_bigr => j _; rewrite mulrBr.
rewrite leNgt; apply/negP => He1.
have Hc : 0 < (e - 1) * rho 0 i ^+ 2 * (\sum_j K i j) by rewrite !mulr_gt0 ?subr_gt0 // exprn_gt0.
have Hrow' : (e - 1) * rho 0 i ^+ 2 * (\sum_j K i j) * v i 0 = \sum_j K i j * (v j 0 - v i 0).
  by rewrite -Hrow; set a := e - 1; set b := v i 0; set d := rho 0 i; set S := \sum_j K i j; mfield R.
case: (ltrgt0P (v i 0)) => [Hpos|Hneg|H0].
- have : 0 < \sum_j K i j * (v j 0 - v i 0) by rewrite -Hrow' mulr_gt0.
  rewrite ltNge => /negP; apply; rewrite -oppr_ge0 -sumrN; apply: sumr_ge0 => j _; rewrite oppr_ge0 pmulr_rle0 // subr_le0.
  by rewrite (le_trans (ler_norm _)) // (le_trans (Hmax j)) // gtr0_norm.
- have : \sum_j K i j * (v j 0 - v i 0) < 0 by rewrite -Hrow' pmulr_rlt0.
  rewrite ltNge => /negP; apply; apply: sumr_ge0 => j _; rewrite pmulr_rge0 // subr_ge0.
  have := Hmax j; rewrite (ltr0_norm Hneg) ler_norml opprK => /andP[H _].
  by [].
- by rewrite H0 eqxx in Hvi.
Qed.

End Conj.

Section Fit.
Variable exp : R -> R.
Variable pow : R -> R -> R.
Variable twopi : R.
Hypothesis He : ExpLaw exp.
Hypothesis Hpw : PowLaw pow.
Hypothesis Ht : 0 < twopi.

Lemma fit_symmetric (c : var_cfg R) n k (eig : eig_t R k) (D : 'M[R]_n) G' e' V' :
  EigenSolver eig -> Distances D -> (1 < n)%N -> (0 < nn c)%R -> 0 < epsilon c -> symmetrize c ->
  var_fit exp pow twopi c eig D = Some (G', e', V') ->
  exists (r q rho : 'I_n -> R) K G e,
    [/\ forall i, NearestMean D `|nn c|%N i (r i),
        Density exp pow (dim c) D r q /\ Bandwidth pow (beta c) q rho,
        VariableKernel exp pow (epsilon c) (dim c) (alpha c) D rho K /\ Weights K rho,
        Generator K rho G /\ G' = 1%:M + G
      & [/\ EigenPairs G' e V', forall j, exists i, V' i j != 0,
            forall j, e 0 j <= 1 & forall j, e' 0 j = pow (e 0 j) (1 / epsilon c)]].
Proof.
move=> Heig HD Hn Hk Heps Hsym; rewrite /var_fit; case: ifP => // _.
have Hk' : (0 < `|nn c|)%N by rewrite absz_gt0 gt_eqF.
have [r [q [rho [K [Hr Hq Hb [HK HW] ->]]]]] := core He Hpw Ht HD Hn Hk' Heps.
rewrite Hsym; have [L [s [EL [Hs [Hss HL]]]]] := conjugate_l HW; rewrite EL /solve_eigenproblem.
case EE: (eig n L) => [[e V]|] // -[<- <- <-].
have [Hpairs Hnz] := Heig _ _ _ _ EE.
have HG := unsym_generator HW EL.
set G0 := unsymmetric_kernel L s in HG *.
have Hsn i : s 0 i != 0 by rewrite lt0r_neq0.
set W := Num.sqrt n%:R *: _.
have HP : EigenPairs G0 e W.
  rewrite /EigenPairs /W -scalemxAr -scalemxAl; congr (_ *: _); apply: eigen_scale.
  rewrite /EigenPairs /G0 /unsymmetric_kernel mat_dot_diagE !diag_dot_matE.
  by rewrite -!mulmxA (mulmxA (diag_mx (reciprocal s))) diag_reciprocal // mul1mx Hpairs !mulmxA.
have Hnz' j : exists i, W i j != 0.
  have [i Hi] := Hnz j; exists i; rewrite !mxE.
  rewrite mulf_neq0 //; first by rewrite sqrt_neq0 // ltr0n ltnW.
  rewrite mulf_neq0 //; last by rewrite mulf_neq0.
  rewrite invr_eq0 sqrt_neq0 // (bigD1 i) //=; apply: ltr_paddr.
    by apply: sumr_ge0 => l _; rewrite sqr_ge0.
  by rewrite exprn_even_gt0 //= !mxE mulf_neq0.
clearbody W G0.
exists r, q, (rho 0), K, (G0 - 1%:M), e; split=> //.
- by split=> //; rewrite addrCA subrr addr0.
- split=> // j; last by rewrite mxE.
  have [i Hi] := Hnz' j.
  apply: (generator_eigen HW HG (v := col j W)).
    rewrite addrCA subrr addr0; apply/matrixP => a b; rewrite [b]ord1.
    have := congr1 (fun M : 'M[R]_(n, k) => M a j) HP; rewrite mxE => H.
    rewrite [LHS]mxE (eq_bigr (fun l => G0 a l * W l j)); last by move=> l _; rewrite [col j W _ _]mxE.
    by rewrite H mul_mx_diag mxE [RHS]mxE [in RHS]mxE mulrC.
  by apply: contraNneq Hi => /matrixP/(_ i 0); rewrite mxE [in RHS]mxE => ->.
Qed.

Lemma fit_total (c : var_cfg R) n k (eig : eig_t R k) (D : 'M[R]_n) :
  Distances D -> (1 < n)%N -> (0 < nn c)%R -> nn c <= n%:Z -> 0 < epsilon c ->
  (forall A : 'M[R]_n, eig n A <> None) -> var_fit exp pow twopi c eig D <> None.
Proof.
move=> HD Hn Hk Hkn Heps Heig; rewrite /var_fit ltNge Hkn /=.
have Hk' : (0 < `|nn c|)%N by rewrite absz_gt0 gt_eqF.
have [r [q [rho [K [Hr Hq Hb [HK HW] ->]]]]] := core He Hpw Ht HD Hn Hk' Heps.
case: (symmetrize c).
  have [L [s [EL _]]] := conjugate_l HW; rewrite EL /solve_eigenproblem.
  by case E: (eig n L) => [[e V]|] //; case: (Heig _ E).
rewrite /solve_eigenproblem; case E: (eig n _) => [[e V]|] //; by case: (Heig _ E).
Qed.

Lemma symmetric_matrix (c : var_cfg R) n k (D : 'M[R]_n) L s :
  symmetrize c -> evaluate exp pow twopi c k D = Some (L, s) -> Symmetric L.
Proof.
move=> Hs; rewrite /evaluate Hs; case: compute_q0 => // q; case: compute_kernel_eps_s => // K.
by case: compute_kernel_eps_alpha_s => // Ka -[<- _] i j; rewrite !mxE addrC.
Qed.

(** ** The default *)

Lemma default_form (c : var_cfg R) n k (D : 'M[R]_n) :
  Distances D -> (1 < n)%N -> (0 < k)%N -> 0 < epsilon c -> symmetrize c = false ->
  exists (r q rho : 'I_n -> R) K L,
    [/\ forall i, NearestMean D k i (r i),
        Density exp pow (dim c) D r q /\ Bandwidth pow (beta c) q rho,
        VariableKernel exp pow (epsilon c) (dim c) (alpha c) D rho K /\ Weights K rho,
        evaluate exp pow twopi c k D = Some (L, None)
      & forall (v : 'cV[R]_n) i,
          (L *m v) i 0 = (\sum_j K i j * v j 0 - v i 0) / (epsilon c * rho i ^+ 2)].
Proof.
move=> HD Hn Hk Heps Hsym.
have [r [q [rho [K [Hr Hq Hb [HK HW] E]]]]] := core He Hpw Ht HD Hn Hk Heps.
rewrite Hsym in E.
exists r, q, (rho 0), K, (compute_matrix_l c K rho); split=> // v i.
rewrite mxE mulrBl [in RHS]mulr_suml.
rewrite (eq_bigr (fun j => K i j * v j 0 / (epsilon c * rho 0 i ^+ 2)
   - (i == j)%:R * v j 0 / (epsilon c * rho 0 i ^+ 2))); last first.
  by move=> j _; rewrite !mxE mulrAC mulrBl mulrBl.
rewrite sumrB; congr (_ - _).
rewrite (bigD1 i) //= eqxx mul1r big1 ?addr0 // => j Hj.
by rewrite eq_sym (negPf Hj) !mul0r.
Qed.

(** Two samples. *)

Lemma two_cases (i : 'I_2) : (i = 0) \/ (i = 1).
Proof. by case: i => [[|[|m]] Hi]; [left|right|by []]; exact: val_inj. Qed.

Lemma two_nearest (D : 'M[R]_2) k i r : Distances D -> (0 < k)%N -> NearestMean D k i r ->
  r = Num.sqrt (D 0 1).
Proof.
move=> [HS _ _] Hk [s [[Hu Hi] Hsz _ ->]].
have {}Hsz : size s = 1%N by rewrite Hsz /=; apply/minn_idPr.
case: s Hu Hi Hsz => [|a [|b s]] // _ Hi _; rewrite big_cons big_nil addr0 divr1.
move: Hi; rewrite inE; case: (two_cases i) => ->; case: (two_cases a) => -> //; by rewrite HS.
Qed.

Lemma two_rows (c : var_cfg R) (D : 'M[R]_2) k (r q rho : 'I_2 -> R) (K : 'M[R]_2) :
  Distances D -> (0 < k)%N -> 0 <= dim c ->
  (forall i, NearestMean D k i (r i)) -> Density exp pow (dim c) D r q -> Bandwidth pow (beta c) q rho ->
  VariableKernel exp pow (epsilon c) (dim c) (alpha c) D rho K -> Weights K rho ->
  forall i, rho i = 1 /\ 1 < \sum_j K i j.
Proof.
move=> HD Hk Hd Hr [c1 [_ Hq]] [[c2 [_ Hrho]] Hsum] HK [_ HKp _].
case: (HD) => HS H0 _; case: (He) => He0 He1; case: (Hpw) => Hp1 Hp2 Hp3.
have Er i : r i = r 0 by rewrite (two_nearest HD Hk (Hr i)) (two_nearest HD Hk (Hr 0)).
have Eq i : q i = q 0.
  rewrite !Hq Er; congr (_ * _); rewrite !big_ord_recl !big_ord0 !Er.
  case: (two_cases i) => -> //; rewrite !addr0 addrC; congr (exp _ + exp _); congr (- (_ / _)).
    by rewrite (_ : lift 0 0 = 1 :> 'I_2); [rewrite !H0 | exact: val_inj].
  by rewrite (_ : lift 0 0 = 1 :> 'I_2); [rewrite HS | exact: val_inj].
have Erho i : rho i = 1.
  have E j : rho j = rho 0 by rewrite !Hrho Eq.
  move: Hsum; rewrite !big_ord_recl big_ord0 addr0 !E -mulr2n -[_ *+ 2]mulr_natr => H.
  by apply: (mulIf (two_neq0 R)); rewrite H mul1r.
move=> i; split=> //.
have Hii : 1 <= K i i.
  rewrite HK /= H0 mul0r oppr0 He0 Erho Hp3 divr1.
  set Q := \sum_j _.
  have HQ : 1 <= Q.
    rewrite /Q (bigD1 i) //= H0 mul0r oppr0 He0 ler_addl.
    by apply: sumr_ge0 => j _; apply/ltW/He1.
  have Ha : alpha c <= 0 by rewrite /alpha mulNr oppr_le0 divr_ge0 // ler0n.
  have HQ0 : 0 < pow Q (alpha c) by apply: Hp1; apply: lt_le_trans HQ; exact: ltr01.
  have HQ1 := Hp2 _ _ HQ Ha.
  by rewrite ler_pdivl_mulr ?mulr_gt0 // mul1r mulr_ile1 // ltW.
have [j Hj] : exists j : 'I_2, j != i.
  by case: (two_cases i) => ->; [exists 1 | exists 0].
rewrite (bigD1 i) //=; apply: (le_lt_trans Hii); rewrite ltr_addl (bigD1 j) //=.
by apply: ltr_paddr => //; apply: sumr_ge0 => l _; apply/ltW.
Qed.

Lemma two_diag (c : var_cfg R) (D : 'M[R]_2) k (r q rho : 'I_2 -> R) (K : 'M[R]_2) :
  Distances D -> (0 < k)%N -> 0 <= dim c ->
  (forall i, NearestMean D k i (r i)) -> Density exp pow (dim c) D r q -> Bandwidth pow (beta c) q rho ->
  VariableKernel exp pow (epsilon c) (dim c) (alpha c) D rho K -> Weights K rho ->
  K 0 0 = K 1 1.
Proof.
move=> HD Hk Hd Hr Hq Hb HK HW.
have Erho i : rho i = 1 by case: (two_rows HD Hk Hd Hr Hq Hb HK HW i).
case: (HD) => HS H0 _; rewrite !HK /= !H0 !Erho !big_ord_recl !big_ord0 !Erho.
rewrite (_ : lift 0 0 = 1 :> 'I_2); last exact: val_inj.
by rewrite !H0 (HS 1 0) !addr0 !mul0r [X in pow (X / _)]addrC.
Qed.

Lemma default_refuted (c : var_cfg R) k (D : 'M[R]_2) :
  Distances D -> (0 < k)%N -> 0 < epsilon c -> 0 <= dim c -> symmetrize c = false ->
  exists L, evaluate exp pow twopi c k D = Some (L, None) /\
    (forall i, 0 < (L *m (const_mx 1 : 'cV[R]_2)) i 0) /\
    ~ exists K rho, Weights K rho /\ Generator K rho L.
Proof.
move=> HD Hk Heps Hd Hsym.
have [r [q [rho [K [L [Hr [Hq Hb] [HK HW] E HL]]]]]] := default_form HD (isT : (1 < 2)%N) Hk Heps Hsym.
exists L; split=> //.
have Hpos i : 0 < (L *m (const_mx 1 : 'cV[R]_2)) i 0.
  have [Er Hs] := two_rows HD Hk Hd Hr Hq Hb HK HW i.
  rewrite HL Er expr1n mulr1 divr_gt0 // mxE subr_gt0.
  by rewrite (eq_bigr (fun j => K i j)) // => j _; rewrite mxE mulr1.
split=> // -[K' [rho' [HW' HG]]].
have := Hpos 0; rewrite HG mxE.
rewrite (eq_bigr (fun j => K' 0 j)); last by move=> j _; rewrite mxE mulr1.
rewrite divff ?subrr ?mul0r ?ltxx //.
case: HW' => _ Hp _; rewrite lt0r_neq0 // (bigD1 0) //=; apply: ltr_paddr => //.
by apply: sumr_ge0 => j _; apply/ltW.
Qed.

End Fit.

Lemma c2_half (d b : R) :
  1 / 2%:R - 2%:R * (- d / 4%:R) + 2%:R * d * (- d / 4%:R) + d * b / 2%:R + b
  = ((d + 2%:R) * b - (d ^+ 2 - d - 1)) / 2%:R.
Proof.
by mfield R.
Qed.

Lemma accepts_iff (c : var_cfg R) : 0 < dim c -> 0 < epsilon c -> 0 < nn c ->
  accepts c = ((dim c + 2%:R) * beta c < dim c ^+ 2 - dim c - 1).
Proof.
move=> H1 H2 H3; rewrite /accepts (lt_geF H1) (lt_gtF H2) (lt_geF H3) /=.
rewrite /c2 /alpha c2_half pmulr_lge0 ?invr_gt0 ?ltr0n // subr_ge0.
by case: leP.
Qed.

Lemma validation_refuted : exists c : var_cfg R,
  dim_int c /\ dim c <= 0 /\ epsilon c < 0 /\ nn c < 0 /\ accepts c.
Proof.
exists (VarCfg (-1) (-1) 0 true (-1) true); rewrite /= lexx ltrN10; do 4 (split=> //).
rewrite /accepts /= lexx ltrN10 /= /c2 /alpha c2_half /= expr0n /= add0r mulrN1 !subr0 !sub0r opprK.
by rewrite addrC pmulr_lge0 ?invr_gt0 ?ltr0n // leNgt subr_lt0 ltr1n.
Qed.

End Proofs.
